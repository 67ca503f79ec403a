(** C07 (cache of constant responses), C08 (cache of plans), C09 (members of a batch). *)
From Coq Require Import String Ascii ZArith NArith Bool List.
From Verif Require Import Base JsonModel TypeModel MustacheModel CtxModel AuthModel DiscModel MergeModel IrModel
  PlanModel OpModel OpSpec ExecModel ExecSpec ShareSpec ShareProofs ExecProofs ConstProofs IrProps.
Import ListNotations.
Open Scope string_scope.
Open Scope list_scope.

(** *** Operations to try *)

Definition field07 (id : nat) (name : string) (e : option (ir string)) (skip : option string) :=
  PField id name name e (TNamed "String" false) None skip None false None [].
Definition word (w : string) : ir string := IDynamic (DValue (VStr w)).
Definition plan07 := finish_plan (fun _ : string => false) "Query" true.
Definition hello07 := [field07 0%nat "hello" (Some (word "world")) None].
Definition bye07 := [field07 0%nat "bye" (Some (word "moon")) None].
Definition mixed07 := [field07 0%nat "hello" (Some (word "world")) None;
                       field07 1%nat "secret" (Some (IProtect lock (word "42"))) None].
Definition skipped07 := [field07 0%nat "hello" (Some (word "world")) (Some "s")].
Definition locked07 := [field07 0%nat "secret" (Some (IProtect lock (word "42"))) None].

Definition create07 (text : string) (name : option string) : result (plan string) string :=
  if String.eqb text "{hello}" then Ok (plan07 hello07)
  else if String.eqb text "{bye}" then Ok (plan07 bye07)
  else if String.eqb text "{hello secret}" then Ok (plan07 mixed07)
  else if String.eqb text "{secret}" then Ok (plan07 locked07)
  else if String.eqb text "query($s){hello @skip(if:$s)}" then Ok (plan07 skipped07)
  else if String.eqb text "query A{hello} query B{bye}" then
    match name with
    | Some n => if String.eqb n "A" then Ok (plan07 hello07)
                else if String.eqb n "B" then Ok (plan07 bye07) else Err "no such operation"
    | None => Err "operation name required"
    end
  else Err "syntax error".

(** Hashes that tell texts and bodies apart by their length. *)
Definition hash07 (t : string) : Z := Z.of_nat (String.length t).
Definition body07 (h : list (string * string)) (l : list gql_request) : Z :=
  fold_left (fun a r => (a * 1000 + Z.of_nat (String.length (q_text r)))%Z) l (Z.of_nat (List.length h)).

Definition env07 (m : member) (_ : unit) : env string string Z nat :=
  {| e_rx := rx32; e_auth := ext32;
     e_req := match m_headers m with [] => nobody | _ => alice end;
     e_io := io32; e_key := fun _ _ => None; e_get := fun _ st => (Ok None, st); e_set := fun _ _ _ st => (Ok tt, st);
     e_state := 0%nat; e_args := fun _ => None; e_vars := q_vars (request_of m) |}.
Definition schema07 : schema string :=
  {| s_implements := fun _ _ => true; s_validate := fun _ _ => true; s_enum := fun _ _ => true;
     s_missing := EExpr "missing" |}.
(** what the caller sees *)
Inductive seen : Type := Data (v : value) | Failed | BadQuery (e : string).
Definition see {E X Y} (r : reply E (X * result value Y)) : seen :=
  match r with Answered (_, Ok v) => Data v | _ => Failed end.
Definition respond07 (p : plan string) (m : member) (w : unit) : seen := see (perform schema07 (env07 m w) p).

Definition steps07 (ops : nat -> member) := steps hash07 body07 create07 respond07 BadQuery ops start.
Definition req07 (t : string) (n : option string) (vars : variables) : gql_request :=
  {| q_text := t; q_operation := n; q_vars := vars |}.
Definition one07 (h : list (string * string)) (r : gql_request) : member :=
  {| m_headers := h; m_body := [r]; m_index := 0 |}.
Definition token : list (string * string) := [("authorization", "alice:pw")].
Definition whole (i : nat) : list (label (World := unit)) :=
  [ReadConst i; ReadPlan i; WritePlan i; Enter i; Finish i tt; WriteConst i].

(** Running a history and looking at where it ends. *)
Lemma ends_with {A} (o : option A) (P : A -> Prop) :
  match o with Some s => P s | None => False end -> exists s, o = Some s /\ P s.
Proof. destruct o; [eauto|contradiction]. Qed.

(** *** C08 *)

(** The plan an operation is executed with was built from a request whose text has
    the same hash. *)
Theorem C08_plan_of_the_same_text :
  forall (IO World Resp BE : Type) text_hash body_hash (create : string -> option string -> result (plan IO) BE)
         (respond : plan IO -> member -> World -> Resp) build_failed ops ls s i p,
    steps text_hash body_hash create respond build_failed ops start ls = Some s ->
    plan_used (a_phase s i) = Some p -> PlanFor text_hash create ops i p.
Proof. intros. eapply used_plan; eauto. Qed.
Print Assumptions C08_plan_of_the_same_text.

(** If hashes tell the texts apart and each text comes with one operation name, it
    is the plan that would have been built from the request alone ... *)
Theorem C08_cache_is_transparent_partial :
  forall (IO World Resp BE : Type) text_hash body_hash (create : string -> option string -> result (plan IO) BE)
         (respond : plan IO -> member -> World -> Resp) build_failed ops ls s i p,
    TextsTold text_hash ops -> OneNamePerText ops ->
    steps text_hash body_hash create respond build_failed ops start ls = Some s ->
    plan_used (a_phase s i) = Some p -> own_plan create ops i = Ok p.
Proof. intros. eapply plan_for_own; eauto. eapply used_plan; eauto. Qed.
Print Assumptions C08_cache_is_transparent_partial.

(** ... and a request that cannot be planned is answered with its own error. *)
Theorem C08_failures_are_not_hidden_partial :
  forall (IO World Resp BE : Type) text_hash body_hash (create : string -> option string -> result (plan IO) BE)
         (respond : plan IO -> member -> World -> Resp) build_failed ops ls s i e r,
    TextsTold text_hash ops -> OneNamePerText ops ->
    steps text_hash body_hash create respond build_failed ops start ls = Some s ->
    own_plan create ops i = Err e -> answer s i = Some r -> r = build_failed e.
Proof. intros. eapply failures_too; eauto. Qed.
Print Assumptions C08_failures_are_not_hidden_partial.

Definition ops08 (i : nat) : member :=
  match i with
  | 0%nat => one07 token (req07 "{hello}" None [])
  | 1%nat => one07 [] (req07 "{hello secret}" None [])
  | 2%nat => one07 [] (req07 "{hello}" None [("unused", VNull)])
  | _ => one07 [] (req07 "{oops" None [])
  end.

Example C08_witness :
  TextsTold hash07 ops08 /\ OneNamePerText ops08 /\
  (* 2 comes while 0 has stored its plan but not its answer; 1 is unauthenticated, 3 is no query *)
  exists s, steps07 ops08 ([ReadConst 0%nat; ReadPlan 0%nat; WritePlan 0%nat; ReadConst 2%nat; ReadPlan 2%nat]
                           ++ whole 1%nat ++ [ReadConst 3%nat; ReadPlan 3%nat]) = Some s /\
    plan_used (a_phase s 2%nat) = Some (plan07 hello07) /\
    answer s 1%nat = Some Failed /\ answer s 3%nat = Some (BadQuery "syntax error").
Proof.
  split; [|split].
  - intros [|[|[|i]]] [|[|[|j]]]; vm_compute; congruence.
  - intros [|[|[|i]]] [|[|[|j]]]; vm_compute; congruence.
  - apply ends_with. vm_compute. auto.
Qed.

Definition ops08b (i : nat) : member :=
  one07 [] (req07 "query A{hello} query B{bye}"
              (match i with 0%nat => Some "A" | 1%nat => Some "B" | _ => Some "C" end) []).

(** The operation name is not part of the key: a later request for another
    operation of the same document is executed with the first one's plan ... *)
Theorem C08_other_operation_refuted :
  exists ops ls (s : app) i p q,
    TextsTold hash07 ops /\ steps07 ops ls = Some s /\
    plan_used (a_phase s i) = Some p /\ own_plan create07 ops i = Ok q /\
    respond07 p (ops i) tt <> respond07 q (ops i) tt.
Proof.
  destruct (ends_with (steps07 ops08b [ReadConst 0; ReadPlan 0; WritePlan 0; ReadConst 1; ReadPlan 1]%nat)
              (fun s => plan_used (a_phase s 1%nat) = Some (plan07 hello07))) as (s & E & P); [vm_compute; reflexivity|].
  exists ops08b. eexists. exists s.
  exists 1%nat, (plan07 hello07), (plan07 bye07). split; [intros i j _; reflexivity|].
  split; [exact E|]. split; [exact P|]. split; [vm_compute; reflexivity|]. vm_compute. discriminate.
Qed.
Print Assumptions C08_other_operation_refuted.

(** ... and a request for an operation that does not exist succeeds. *)
Theorem C08_unknown_operation_refuted :
  exists ops ls (s : app) i e v,
    TextsTold hash07 ops /\ steps07 ops ls = Some s /\
    own_plan create07 ops i = Err e /\ answer s i = Some (Data v).
Proof.
  destruct (ends_with (steps07 ops08b (whole 0 ++ [ReadConst 2])%nat)
              (fun s => answer s 2%nat = Some (Data (VObj [("hello", VStr "world")])))) as (s & E & P); [vm_compute; reflexivity|].
  exists ops08b. eexists. exists s.
  exists 2%nat. do 2 eexists.
  split; [intros i j _; reflexivity|]. split; [exact E|]. split; [vm_compute; reflexivity|exact P].
Qed.
Print Assumptions C08_unknown_operation_refuted.

(** *** C07 *)

(** A response out of the cache was made for a request whose text has the same
    hash, whose plan was constant and not all guarded. *)
Theorem C07_origin_of_cached_responses :
  forall (IO World Resp BE : Type) text_hash body_hash (create : string -> option string -> result (plan IO) BE)
         (respond : plan IO -> member -> World -> Resp) build_failed ops ls s i r,
    steps text_hash body_hash create respond build_failed ops start ls = Some s ->
    a_phase s i = FromCache r ->
    exists j p, text_hash (text ops j) = text_hash (text ops i) /\ PlanFor text_hash create ops j p /\
                pl_const p = true /\ pl_protected p = false /\
                CameFrom text_hash body_hash create respond ops j p r.
Proof. intros. eapply from_cache; eauto. Qed.
Print Assumptions C07_origin_of_cached_responses.

(** Constant plans (those that get cached) without guards, entity lookups and conditions on variables: the
    cached response is what executing the caller's own plan for the caller would
    give, now and at any other time, whatever the credentials, variables,
    environment and upstreams.  Missing for the full claim: plans with guards on
    some fields, variables in conditions, several operations per text, and batches
    (see the refutations below). *)
Theorem C07_cached_is_fresh_partial :
  forall (IO F Key St World Resp BE : Type) text_hash body_hash
         (create : string -> option string -> result (plan IO) BE) sc (env_of : member -> World -> env IO F Key St)
         (present : reply (ir_error F) (list event * result value synth_error) -> Resp) build_failed ops,
    let respond := fun p m w => present (perform sc (env_of m w) p) in
    TextsTold text_hash ops -> OneNamePerText ops -> OperationsTold body_hash ops ->
    (forall m w m' w' t, x_parse (e_rx (env_of m w)) t = x_parse (e_rx (env_of m' w')) t) ->
    (forall i p, own_plan create ops i = Ok p -> pl_const p = true -> pl_protected p = false ->
       exists dedupe root is_query fs,
         p = finish_plan dedupe root is_query fs /\ Forall OpenField fs) ->
    forall ls s i r,
      steps text_hash body_hash create respond build_failed ops start ls = Some s ->
      a_phase s i = FromCache r ->
      exists p, own_plan create ops i = Ok p /\ pl_protected p = false /\
                forall w, r = present (perform sc (env_of (ops i) w) p).
Proof.
  intros IO F Key St World Resp BE th bh create sc env_of present bf ops respond T N O X H ls s i r St_ A.
  refine (cached_is_fresh th bh create respond bf ops ls s i r T N O _ St_ A).
  intros j p Hp C Pr k l w w'. unfold respond. f_equal. destruct (H j p Hp C Pr) as (d & root & q & fs & -> & Of).
  apply const_perform; [exact (X _ _ _ _)|exact Of|].
  unfold finish_plan in C. destruct (plan_auth fs). exact C.
Qed.
Print Assumptions C07_cached_is_fresh_partial.

(** An operation whose resolvers are all guarded is never answered from the cache. *)
Theorem C07_guarded_is_never_cached_partial :
  forall (IO World Resp BE : Type) text_hash body_hash (create : string -> option string -> result (plan IO) BE)
         (respond : plan IO -> member -> World -> Resp) build_failed ops ls s i r dedupe root is_query fs,
    TextsTold text_hash ops -> OneNamePerText ops ->
    own_plan create ops i = Ok (finish_plan dedupe root is_query fs) ->
    (forall f e, Within fs f -> p_ir f = Some e -> Guarded e) ->
    steps text_hash body_hash create respond build_failed ops start ls = Some s ->
    a_phase s i <> FromCache r.
Proof.
  intros IO World Resp BE th bh create respond bf ops ls s i r d root q fs T N Ow All St_ A.
  destruct (from_cache th bh create respond bf ops ls s i r St_ A) as (j & p & E & P & _ & Pp & _).
  assert (Q : PlanFor th create ops i p) by (destruct P as (k & Ek & P); exists k; split; [congruence|exact P]).
  apply plan_for_own in Q; [|exact T|exact N]. rewrite Ow in Q. injection Q as <-.
  unfold finish_plan in Pp. destruct (plan_auth fs). cbn in Pp.
  assert (plan_is_protected fs = true); [|congruence].
  apply plan_protected_spec. exact All.
Qed.
Print Assumptions C07_guarded_is_never_cached_partial.

Definition ops07 (i : nat) : member :=
  match i with
  | 0%nat => one07 token (req07 "{hello}" None [])
  | 1%nat => one07 [] (req07 "{hello}" None [])
  | 2%nat => one07 token (req07 "{secret}" None [])
  | _ => one07 [] (req07 "{secret}" None [])
  end.

Example C07_witness :
  TextsTold hash07 ops07 /\ OneNamePerText ops07 /\ OperationsTold body07 ops07 /\
  (forall i p, own_plan create07 ops07 i = Ok p -> pl_const p = true -> pl_protected p = false ->
     exists dedupe root q fs, p = finish_plan dedupe root q fs /\ Forall OpenField fs) /\
  (exists s, steps07 ops07 (whole 0%nat ++ [ReadConst 1%nat] ++ whole 2%nat ++ [ReadConst 3; ReadPlan 3; Enter 3; Finish 3 tt; WriteConst 3]%nat) = Some s /\
    a_phase s 1%nat = FromCache (Data (VObj [("hello", VStr "world")])) /\
    answer s 2%nat = Some (Data (VObj [("secret", VStr "42")])) /\ answer s 3%nat = Some Failed).
Proof.
  split; [|split; [|split; [|split]]].
  - intros [|[|[|i]]] [|[|[|j]]]; vm_compute; congruence.
  - intros [|[|[|i]]] [|[|[|j]]]; vm_compute; congruence.
  - intros [|[|[|i]]] [|[|[|j]]]; vm_compute; intros; split; congruence.
  - intros [|[|[|i]]] p H _ Pr; vm_compute in H; try discriminate; injection H as <-; try discriminate Pr;
      exists (fun _ => false), "Query", true, hello07; (split; [vm_compute; reflexivity|]);
      repeat constructor; intros x E; injection E as <-; constructor.
  - apply ends_with. vm_compute. auto.
Qed.

Definition ops07b (i : nat) : member := one07 (match i with 0%nat => token | _ => [] end) (req07 "{hello secret}" None []).

(** FINDING: with one field guarded and one not, the constant response is cached and
    served to a caller that fails authentication. *)
Theorem C07_mixed_protection_refuted :
  exists ops ls (s : app) i p v,
    TextsTold hash07 ops /\ OneNamePerText ops /\ OperationsTold body07 ops /\
    steps07 ops ls = Some s /\ own_plan create07 ops i = Ok p /\
    respond07 p (ops i) tt = Failed /\ answer s i = Some (Data (VObj [("hello", VStr "world"); ("secret", v)])).
Proof.
  destruct (ends_with (steps07 ops07b (whole 0 ++ [ReadConst 1])%nat)
              (fun s => answer s 1%nat = Some (Data (VObj [("hello", VStr "world"); ("secret", VStr "42")])))) as (s & E & P); [vm_compute; reflexivity|].
  exists ops07b. eexists. exists s.
  exists 1%nat, (plan07 mixed07), (VStr "42").
  split; [intros i j _; reflexivity|]. split; [intros i j _; reflexivity|].
  split; [intros [|i] [|j]; vm_compute; intros; split; congruence|].
  split; [exact E|]. split; [vm_compute; reflexivity|]. split; [vm_compute; reflexivity|exact P].
Qed.
Print Assumptions C07_mixed_protection_refuted.

Definition ops07c (i : nat) : member :=
  one07 (match i with 0%nat => [] | _ => token end)
        (req07 "query($s){hello @skip(if:$s)}" None [("s", VBool (match i with 0%nat => false | _ => true end))]).

(** FINDING: the key does not cover the variables, which conditions depend on. *)
Theorem C07_variables_refuted :
  exists ops ls (s : app) i p r,
    TextsTold hash07 ops /\ OneNamePerText ops /\
    steps07 ops ls = Some s /\ own_plan create07 ops i = Ok p /\
    answer s i = Some r /\ respond07 p (ops i) tt <> r.
Proof.
  destruct (ends_with (steps07 ops07c (whole 0 ++ [ReadConst 1])%nat)
              (fun s => answer s 1%nat = Some (Data (VObj [("hello", VStr "world")])))) as (s & E & P); [vm_compute; reflexivity|].
  exists ops07c. eexists. exists s.
  exists 1%nat, (plan07 skipped07), (Data (VObj [("hello", VStr "world")])).
  split; [intros i j _; reflexivity|]. split; [intros i j _; reflexivity|].
  split; [exact E|]. split; [vm_compute; reflexivity|]. split; [exact P|].
  vm_compute. discriminate.
Qed.
Print Assumptions C07_variables_refuted.

(** FINDING: nor the operation name. *)
Theorem C07_operation_name_refuted :
  exists ops ls (s : app) i p r,
    TextsTold hash07 ops /\ steps07 ops ls = Some s /\ own_plan create07 ops i = Ok p /\
    answer s i = Some r /\ respond07 p (ops i) tt <> r.
Proof.
  destruct (ends_with (steps07 ops08b (whole 0 ++ [ReadConst 1])%nat)
              (fun s => answer s 1%nat = Some (Data (VObj [("hello", VStr "world")])))) as (s & E & P); [vm_compute; reflexivity|].
  exists ops08b. eexists. exists s.
  exists 1%nat, (plan07 bye07), (Data (VObj [("hello", VStr "world")])).
  split; [intros i j _; reflexivity|].
  split; [exact E|]. split; [vm_compute; reflexivity|]. split; [exact P|].
  vm_compute. discriminate.
Qed.
Print Assumptions C07_operation_name_refuted.

(** *** C09 *)

(** If equal identifiers mean equal operations, every answer that is not from the
    cache of constant responses is the operation's own: either its own build error,
    or an execution of its plan for an operation with the same headers, text, name
    and variables. *)
Theorem C09_own_answer_partial :
  forall (IO World Resp BE : Type) text_hash body_hash (create : string -> option string -> result (plan IO) BE)
         (respond : plan IO -> member -> World -> Resp) build_failed ops ls s i r,
    OperationsTold body_hash ops ->
    steps text_hash body_hash create respond build_failed ops start ls = Some s ->
    answer s i = Some r -> a_phase s i <> FromCache r ->
    (exists e, own_plan create ops i = Err e /\ r = build_failed e) \/
    exists k pk w, m_headers (ops k) = m_headers (ops i) /\ request_of (ops k) = request_of (ops i) /\
                   PlanFor text_hash create ops i pk /\ r = respond pk (ops k) w.
Proof. intros. eapply own_answer; eauto. Qed.
Print Assumptions C09_own_answer_partial.

(** Without any assumption on identifiers, but for plans that may not be shared,
    the answer is an execution for this very member of the batch. *)
Theorem C09_unshared_members_partial :
  forall (IO World Resp BE : Type) text_hash body_hash (create : string -> option string -> result (plan IO) BE)
         (respond : plan IO -> member -> World -> Resp) build_failed ops ls s i r,
    (forall j p, own_plan create ops j = Ok p -> plan_can_dedupe p = false) ->
    steps text_hash body_hash create respond build_failed ops start ls = Some s ->
    answer s i = Some r -> a_phase s i <> FromCache r ->
    (exists e, own_plan create ops i = Err e /\ r = build_failed e) \/
    exists p w, PlanFor text_hash create ops i p /\ r = respond p (ops i) w.
Proof.
  intros IO World Resp BE th bh create respond bf ops ls s i r D St_ A NC.
  destruct (answered_uncached th bh create respond bf ops ls s i r St_ A NC)
    as [H|(p & P & k & pk & w & _ & Pk & -> & [[-> ->]|[Dp _]])]; [left; exact H|right|].
  - exists p, w. auto.
  - destruct P as (j & _ & P). rewrite (D j p P) in Dp. discriminate.
Qed.
Print Assumptions C09_unshared_members_partial.

Definition batch09 : list gql_request := [req07 "{hello}" None []; req07 "{bye}" None []].
Definition ops09 (i : nat) : member := {| m_headers := []; m_body := batch09; m_index := i |}.

Example C09_witness :
  (* one by one, both members are answered on their own *)
  (exists s, steps07 ops09 (whole 0%nat ++ whole 1%nat) = Some s /\
    answer s 0%nat = Some (Data (VObj [("hello", VStr "world")])) /\
    answer s 1%nat = Some (Data (VObj [("bye", VStr "moon")]))) /\
  (* apart, in requests of their own, they have identifiers of their own *)
  OperationsTold body07 (fun i => one07 token (nth (Nat.min i 1) batch09 (req07 "" None []))).
Proof.
  split; [apply ends_with; vm_compute; auto|].
  intros [|[|i]] [|[|j]]; vm_compute; intros; split; congruence.
Qed.

(** FINDING: all members of a batch have the identifier of the whole body, so a
    member that joins another's execution is answered with the other's data. *)
Theorem C09_batch_members_mixed_up_refuted :
  exists ops ls (s : app) p,
    m_body (ops 0%nat) = m_body (ops 1%nat) /\ m_index (ops 0%nat) = 0%nat /\ m_index (ops 1%nat) = 1%nat /\
    text ops 0%nat <> text ops 1%nat /\
    TextsTold hash07 (fun i => ops (Nat.min i 1)) /\
    steps07 ops ls = Some s /\ own_plan create07 ops 1%nat = Ok p /\
    respond07 p (ops 1%nat) tt = Data (VObj [("bye", VStr "moon")]) /\
    answer s 1%nat = Some (Data (VObj [("hello", VStr "world")])).
Proof.
  destruct (ends_with (steps07 ops09 [ReadConst 0; ReadPlan 0; WritePlan 0; ReadConst 1; ReadPlan 1; WritePlan 1;
                 Enter 0; Enter 1; Finish 0 tt; WriteConst 0; WriteConst 1]%nat)
              (fun s => answer s 1%nat = Some (Data (VObj [("hello", VStr "world")])))) as (s & E & P); [vm_compute; reflexivity|].
  exists ops09. eexists. exists s.
  exists (plan07 bye07). split; [reflexivity|]. split; [reflexivity|]. split; [reflexivity|].
  split; [discriminate|]. split; [intros [|[|i]] [|[|j]]; vm_compute; congruence|].
  split; [exact E|]. split; [vm_compute; reflexivity|]. split; [vm_compute; reflexivity|exact P].
Qed.
Print Assumptions C09_batch_members_mixed_up_refuted.

(** FINDING: and the wrong answer then stays in the cache of constant responses, for
    everybody who sends that text. *)
Theorem C09_batch_poisons_the_cache_refuted :
  exists ops ls (s : app) p,
    m_body (ops 2%nat) = [req07 "{bye}" None []] /\ steps07 ops ls = Some s /\ own_plan create07 ops 2%nat = Ok p /\
    respond07 p (ops 2%nat) tt = Data (VObj [("bye", VStr "moon")]) /\
    answer s 2%nat = Some (Data (VObj [("hello", VStr "world")])).
Proof.
  destruct (ends_with (steps07 (fun i => match i with 2%nat => one07 token (req07 "{bye}" None []) | _ => ops09 i end) [ReadConst 0; ReadPlan 0; WritePlan 0; ReadConst 1; ReadPlan 1; WritePlan 1;
          Enter 0; Enter 1; Finish 0 tt; WriteConst 0; WriteConst 1; ReadConst 2]%nat)
              (fun s => answer s 2%nat = Some (Data (VObj [("hello", VStr "world")])))) as (s & E & P); [vm_compute; reflexivity|].
  exists (fun i => match i with 2%nat => one07 token (req07 "{bye}" None []) | _ => ops09 i end). eexists. exists s.
  exists (plan07 bye07). split; [reflexivity|].
  split; [exact E|]. split; [vm_compute; reflexivity|]. split; [vm_compute; reflexivity|exact P].
Qed.
Print Assumptions C09_batch_poisons_the_cache_refuted.
