(** Answers of GraphQL servers that are asked, and the errors of an answer: [parse_graphql_response] of src/core/ir/eval_http.rs,
    src/core/jit/graphql_error.rs, src/core/jit/error.rs, src/core/ir/error.rs, src/core/jit/model.rs and src/core/jit/exec.rs. *)
From Coq Require Import String Ascii ZArith Bool List.
From Verif Require Import Base JsonModel ErModel.
Import ListNotations.
Open Scope string_scope.
Open Scope list_scope.

(** jit/model.rs:493-500 *)
Record pos := { line : Z; column : Z }.
(** jit/model.rs:526-533 *)
Inductive segment : Type := SField (name : string) | SIndex (i : Z).
(** [async_graphql::ServerError] (external crate) *)
Record server_error := { se_message : string; se_locations : list pos; se_path : list segment; se_extensions : option (list (string * value)) }.
(** jit/graphql_error.rs:10-22; extensions are a [BTreeMap] *)
Record gql_error := { ge_message : string; ge_locations : list pos; ge_path : list segment; ge_extensions : option (list (string * value)) }.
(** ir/error.rs:11-38; the errors of other modules are their texts *)
Inductive ir_error : Type :=
| IO (message : string)
| GRPC (code : Z) (description status_message : string) (details : value)
| APIValidation (errors : list string)
| ExprEval (message : string)
| Deserialize (message : string)
| Auth (text : string)
| Worker (text : string)
| Cache (text : string)
| Entity (message : string).
(** ir/error.rs:46-73 *)
Definition errata_of (e : ir_error) : errata :=
  match e with
  | IO m => describe m (new "IOException")
  | GRPC code d m _ => describe ("status: " ++ Z_to_string code ++ ", description: `" ++ d ++ "`, message: `" ++ m ++ "`")%string (new "gRPC Error")
  | APIValidation errors => caused_by (map new errors) (new "API Validation Error")
  | Deserialize m => describe m (new "Deserialization Error")
  | ExprEval m => describe m (new "Expression Evaluation Error")
  | Auth t => describe t (new "Authentication Failure")
  | Worker t => describe t (new "Worker Error")
  | Cache t => describe t (new "Cache Error")
  | Entity m => describe m (new "Entity Resolver Error")
  end.
(** ir/error.rs:40-44, [None] if it panics; nothing is coloured *)
Definition ir_text (e : ir_error) : option string := display (fun _ s => s) (errata_of e).
(** ir/error.rs:75-94, the extensions: [extend_with] always sets them *)
Definition ir_extend (e : ir_error) : option (list (string * value)) :=
  match e with
  | GRPC code d m details =>
      Some [("grpcCode", VNum (NInt code)); ("grpcDescription", VStr d); ("grpcStatusDetails", details); ("grpcStatusMessage", VStr m)]
  | _ => Some []
  end.
(** jit/error.rs:43-57; errors of building a plan and of validation are their texts *)
Inductive jit_error : Type :=
| BuildError (text : string)
| ParseError (text : string) (positions : list pos)
| IR (e : ir_error)
| Validation (text : string)
| ServerErr (e : server_error)
| Unknown.
(** jit/error.rs:43-57, [Display] *)
Definition jit_text (e : jit_error) : option string :=
  match e with
  | BuildError t => Some ("Build error: " ++ t)%string
  | ParseError t _ => Some ("ParseError: " ++ t)%string
  | IR e => ir_text e
  | Validation t => Some t
  | ServerErr e => Some (se_message e)
  | Unknown => Some "Unexpected error"
  end.
(** jit/error.rs:59-70; all but [IR] have the [extend] of graphql_error.rs:229-233 *)
Definition jit_extend (e : jit_error) : option (list (string * value)) :=
  match e with
  | IR e => ir_extend e
  | _ => None
  end.
(** jit/model.rs:544-549 *)
Record positioned := { p_error : jit_error; p_pos : pos; p_path : list segment }.
(** jit/model.rs:565-579 *)
Definition from_server (e : server_error) : positioned :=
  {| p_error := ServerErr e; p_pos := match se_locations e with p :: _ => p | [] => {| line := 0; column := 0 |} end; p_path := se_path e |}.
(** graphql_error.rs:45-64 and 96-105 *)
Definition to_gql (p : positioned) : option gql_error :=
  match p_error p with
  | ParseError t positions => Some {| ge_message := t; ge_locations := positions; ge_path := []; ge_extensions := None |}
  | e => match jit_text e with
         | Some m => Some {| ge_message := m; ge_locations := [p_pos p]; ge_path := p_path p; ge_extensions := jit_extend e |}
         | None => None
         end
  end.
(** graphql_error.rs:9-22, as JSON: what is empty is left out *)
Definition pos_json (p : pos) : value := VObj [("line", VNum (NInt (line p))); ("column", VNum (NInt (column p)))].
Definition segment_json (s : segment) : value := match s with SField n => VStr n | SIndex i => VNum (NInt i) end.
Definition wire (g : gql_error) : value :=
  VObj ([("message", VStr (ge_message g))]
    ++ (match ge_locations g with [] => [] | l => [("locations", VList (map pos_json l))] end)
    ++ (match ge_path g with [] => [] | l => [("path", VList (map segment_json l))] end)
    ++ (match ge_extensions g with None | Some [] => [] | Some l => [("extensions", VObj l)] end)).

Section Answers.
  (** serde's reading of an [async_graphql::Response] (external crates): its data and errors *)
  Variable decode : value -> result (value * list server_error) string.

  (** eval_http.rs:267-285: the value, and the errors that are added to the request *)
  Definition parse_graphql_response (body : value) (field : string) : result value ir_error * list positioned :=
    match decode body with
    | Err e => (Err (Deserialize e), [])
    | Ok (data, errors) =>
        (Ok (match data with VObj m => match aget field m with Some v => v | None => VNull end | _ => VNull end), map from_server errors)
    end.

  (** A fetch of the key [f_key], shared by the requests [f_askers] that ask while it runs, the first of which runs it; [f_cached]: the field has [@cache].
      Requests can be of different clients: the handler of eval_io.rs:29-38 is that of the server. *)
  Record fetch := { f_key : string; f_cached : bool; f_field : string; f_askers : list nat; f_body : value }.
  (** What is known: the cache and what each request was told. Entries do not expire here. *)
  Record world := { w_cache : list (string * value); w_told : list (nat * positioned); w_got : list (nat * result value ir_error) }.
  (** eval_io.rs:17-42 and eval.rs:47-65, for GraphQL: only the request that runs the fetch gets its errors, and only the value is kept *)
  Definition run_fetch (w : world) (f : fetch) : world :=
    match (if f_cached f then aget (f_key f) (w_cache w) else None) with
    | Some v => {| w_cache := w_cache w; w_told := w_told w; w_got := w_got w ++ map (fun r => (r, Ok v)) (f_askers f) |}
    | None =>
        match f_askers f with
        | [] => w
        | leader :: _ =>
            let '(res, errors) := parse_graphql_response (f_body f) (f_field f) in
            {| w_cache := match res with Ok v => if f_cached f then aset (f_key f) v (w_cache w) else w_cache w | Err _ => w_cache w end;
               w_told := w_told w ++ map (fun e => (leader, e)) errors;
               w_got := w_got w ++ map (fun r => (r, res)) (f_askers f) |}
        end
    end.
  Definition run (fs : list fetch) : world := fold_left run_fetch fs {| w_cache := []; w_told := []; w_got := [] |}.
  (** exec.rs:44-52 and response.rs:36-57: the error of the answer itself, if there is one, and then all that were added; [None] if one cannot be told *)
  Fixpoint all_gql (l : list positioned) : option (list gql_error) :=
    match l with
    | [] => Some []
    | p :: l => match to_gql p, all_gql l with Some g, Some gs => Some (g :: gs) | _, _ => None end
    end.
  Definition added (w : world) (r : nat) : list positioned := map snd (filter (fun x => Nat.eqb (fst x) r) (w_told w)).
  Definition answer_errors (own : option positioned) (w : world) (r : nat) : option (list gql_error) :=
    all_gql ((match own with Some e => [e] | None => [] end) ++ added w r).
End Answers.
