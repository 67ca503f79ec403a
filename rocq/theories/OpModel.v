(** Operations as planned and executed: the passes of src/core/jit/transform over a
    plan, and src/core/jit/exec_const.rs. *)
From Coq Require Import String Ascii ZArith NArith Bool List.
From Verif Require Import Base JsonModel CtxModel AuthModel IrModel PlanModel.
Import ListNotations.
Open Scope string_scope.
Open Scope list_scope.

Section Op.
  Context {IO : Type}.
  Notation ir := (ir IO).
  Notation field := (pfield ir).

  Definition with_ir (f : field) (e : option ir) (sel : list field) : field :=
    let '(PField i n o _ t c s inc en sc _) := f in PField i n o e t c s inc en sc sel.

  (** src/core/jit/transform/auth_planner.rs:40-51: the selection below a field
      without resolver is not visited. *)
  Fixpoint update_field (f : field) : field * list auth :=
    let '(PField i n o e t c s inc en sc sel) := f in
    match e with
    | None => (f, [])
    | Some e =>
        let '(e', l) := update_ir e in
        let '(sel', l') :=
          (fix go (fs : list field) : list field * list auth :=
             match fs with
             | [] => ([], [])
             | g :: rest =>
                 let '(g', a) := update_field g in
                 let '(rest', b) := go rest in (g' :: rest', a ++ b)
             end) sel in
        (PField i n o (Some e') t c s inc en sc sel', l ++ l')
    end.

  (** src/core/jit/transform/auth_planner.rs:25-37 *)
  Fixpoint update_fields (fs : list field) : list field * list auth :=
    match fs with
    | [] => ([], [])
    | g :: rest =>
        let '(g', a) := update_field g in
        let '(rest', b) := update_fields rest in (g' :: rest', a ++ b)
    end.

  Definition plan_auth (fs : list field) : list field * option ir :=
    let '(fs', auths) := update_fields fs in (fs', before_chain auths).

  (** src/core/jit/model.rs: [iter_dfs] *)
  Fixpoint dfs (f : field) : list field :=
    let '(PField _ _ _ _ _ _ _ _ _ _ sel) := f in
    f :: (fix go (fs : list field) : list field :=
            match fs with [] => [] | g :: rest => dfs g ++ go rest end) sel.
  Definition all_fields (fs : list field) : list field := flat_map dfs fs.

  Definition ir_all (p : ir -> bool) (f : field) : bool :=
    match p_ir f with Some e => p e | None => true end.

  (** src/core/jit/transform/check_const.rs:35-51 *)
  Definition plan_is_const (fs : list field) : bool := forallb (ir_all is_const) (all_fields fs).

  (** src/core/jit/transform/check_protected.rs:35-48 *)
  Definition plan_is_protected (fs : list field) : bool := forallb (ir_all is_protected) (all_fields fs).

  (** src/core/jit/transform/check_dedupe.rs:35-53: root fields only *)
  Definition plan_is_dedupe (dedupe : IO -> bool) (fs : list field) : bool :=
    forallb (ir_all (check_dedupe dedupe)) fs.

  (** [NonZeroU64::MAX] *)
  Definition u64_max : Z := 18446744073709551615.

  (** src/core/jit/transform/check_cache.rs:36-54: root fields only *)
  Definition plan_min_ttl (fs : list field) : option Z :=
    fold_left (fun ttl f => match p_ir f with Some e => omin ttl (check_cache e) | None => ttl end)
              fs (Some u64_max).

  (** src/core/jit/model.rs:442-444 *)
  Definition can_dedupe (is_query : bool) (dedupe : IO -> bool) (fs : list field) : bool :=
    is_query && (plan_is_dedupe dedupe fs || plan_is_const fs
                 || match plan_min_ttl fs with Some _ => true | None => false end).

  (** src/core/jit/exec_const.rs:37-111.  [check] is the evaluation of the chain in
      front of the operation; a failure ends the operation with that error and
      nothing else. *)
  Inductive reply (E X : Type) : Type :=
  | Rejected (e : E)
  | Answered (x : X).
  Arguments Rejected {E X} e. Arguments Answered {E X} x.

  Definition guarded {E X V : Type} (check : ir -> result V E) (before : option ir) (go : unit -> X) : reply E X :=
    match before with
    | Some b => match check b with Err e => Rejected e | Ok _ => Answered (go tt) end
    | None => Answered (go tt)
    end.

  Section Execute.
    Context {E : Type}.
    Variable implements : string -> string -> bool.
    (** evaluation of a resolver expression for the field of that identifier and
        this parent value *)
    Variable sem : ir -> nat -> option value -> result value E.
    Variable missing : E.
    Variable validate : string -> value -> bool.
    Variable enum_value : string -> string -> bool.

    Definition resolve_field (f : field) (parent : option value) : result value E :=
      match p_ir f with Some e => sem e (p_id f) parent | None => Err missing end.

    Definition execute (check : ir -> result value E) (root : string) (vars : variables)
               (plan : list field * option ir)
      : reply E (list (event (E := E)) * result value (synth_error (E := E))) :=
      guarded check (snd plan)
        (fun _ => run implements resolve_field missing validate enum_value root vars (fst plan)).
  End Execute.
End Op.
Arguments Rejected {E X} e. Arguments Answered {E X} x.
