(** Resolver expressions: src/core/ir/model.rs and src/core/ir/eval.rs, and the
    passes over them in src/core/jit/transform. *)
From Coq Require Import String Ascii ZArith NArith Bool List.
From Verif Require Import Base JsonModel MustacheModel CtxModel AuthModel DiscModel MergeModel.
Import ListNotations.
Open Scope string_scope.
Open Scope list_scope.

(** src/core/ir/model.rs:17-42.  [IO] is the type of upstream calls; an
    [Entity]'s [HashMap] is a list of entries. *)
Inductive ir (IO : Type) : Type :=
| IDynamic (d : dynamic)
| IIO (io : IO)
| ICache (max_age : Z) (io : IO)
| IPath (e : ir IO) (path : list string)
| IContextPath (path : list string)
| IProtect (a : auth) (e : ir IO)
| IMap (input : ir IO) (m : list (string * string))
| IPipe (e1 e2 : ir IO)
| IMerge (l : list (ir IO))
| IDiscriminate (d : discriminator) (e : ir IO)
| IEntity (m : list (string * ir IO))
| IService (sdl : string).
Arguments IDynamic {IO} d. Arguments IIO {IO} io. Arguments ICache {IO} max_age io.
Arguments IPath {IO} e path. Arguments IContextPath {IO} path. Arguments IProtect {IO} a e.
Arguments IMap {IO} input m. Arguments IPipe {IO} e1 e2. Arguments IMerge {IO} l.
Arguments IDiscriminate {IO} d e. Arguments IEntity {IO} m. Arguments IService {IO} sdl.

(** src/core/ir/error.rs, the errors an evaluation can end with; [F] are those of
    upstream calls and of the cache. *)
Inductive ir_error (F : Type) : Type :=
| EAuth (e : auth_error)
| EExpr (msg : string)
| EEntity (msg : string)
| EDiscriminate (msg : string)
| EOutside (f : F).
Arguments EAuth {F} e. Arguments EExpr {F} msg. Arguments EEntity {F} msg.
Arguments EDiscriminate {F} msg. Arguments EOutside {F} f.

Section Ir.
  Context {IO : Type}.
  Local Notation ir := (ir IO).

  Section Eval.
    Context {F Key St : Type}.
    Local Notation error := (ir_error F).
    Local Notation outcome := (result value error * St)%type.

    Variable rx : req_ext.
    Variable ext : auth_ext.
    Variable req : request.
    (** [eval_io] (src/core/ir/eval_io.rs:17-41): the call and all it does outside *)
    Variable do_io : IO -> ctx -> St -> result value F * St.
    (** [CacheKey::cache_key] (src/core/ir/model.rs:211-220) *)
    Variable cache_key : IO -> ctx -> option Key.
    (** the runtime's cache *)
    Variable cache_get : Key -> St -> result (option value) F * St.
    Variable cache_set : Key -> value -> Z -> St -> result unit F * St.

    Definition lift {A} (r : result A F) : result A error :=
      match r with Ok a => Ok a | Err f => Err (EOutside f) end.

    (** src/core/ir/eval.rs:66-91 *)
    Fixpoint map_enum (m : list (string * string)) (v : value) : result value error :=
      match v with
      | VNull => Ok VNull
      | VStr key =>
          match aget key m with
          | Some w => Ok (VStr w)
          | None => Err (EExpr ("Can't find mapped key: " ++ key ++ "."))
          end
      | VList l =>
          rmap VList ((fix go (l : list value) : result (list value) error :=
             match l with
             | [] => Ok []
             | x :: t => rbind (map_enum m x) (fun y => rmap (cons y) (go t))
             end) l)
      | _ => Err (EExpr "Mapped key must be either string or array value.")
      end.

    (** src/core/ir/eval.rs:133-148: every representation is looked at before any
        resolver runs. *)
    Fixpoint check_representations (names : list string) (l : list value) :
      result (list (string * value)) error :=
      match l with
      | [] => Ok []
      | repr :: t =>
          match get_type_name repr with
          | None => Err (EEntity "expected __typename to be the part of the representation")
          | Some n =>
              if smem n names then
                rmap (cons (n, repr)) (check_representations names t)
              else Err (EEntity ("Cannot find a resolver for type: `" ++ n ++ "`"))
          end
      end.

    (** src/core/ir/eval.rs:108-116: [Iterator::reduce], or the default value *)
    Definition merge_values (l : list value) : value :=
      match l with [] => VNull | v :: t => fold_left m_json t v end.

    (** src/core/ir/eval.rs:62-79 (the [Cache] arm) *)
    Definition eval_cached (max_age : Z) (io : IO) (c : ctx) (st : St) : outcome :=
      match cache_key io c with
      | None => let '(r, st) := do_io io c st in (lift r, st)
      | Some key =>
          match cache_get key st with
          | (Err f, st) => (Err (EOutside f), st)
          | (Ok (Some v), st) => (Ok v, st)
          | (Ok None, st) =>
              match do_io io c st with
              | (Err f, st) => (Err (EOutside f), st)
              | (Ok v, st) =>
                  match cache_set key v max_age st with
                  | (Err f, st) => (Err (EOutside f), st)
                  | (Ok tt, st) => (Ok v, st)
                  end
              end
          end
      end.

    (** src/core/ir/eval.rs:18-172.  The futures of [join_all] are run one after
        the other. *)
    Fixpoint eval (e : ir) (c : ctx) (st : St) {struct e} : outcome :=
      match e with
      | IContextPath path =>
          (Ok (match path_value c path with Some v => cow_value v | None => VNull end), st)
      | IPath e path =>
          match eval e c st with
          | (Ok v, st) => (Ok (match get_path path v with Some x => x | None => VNull end), st)
          | (Err er, st) => (Err er, st)
          end
      | IDynamic d => (Ok (render_value rx d c), st)
      | IProtect a e =>
          match to_result (verify ext a req) with
          | Err er => (Err (EAuth er), st)
          | Ok _ => eval e c st
          end
      | IIO io => let '(r, st) := do_io io c st in (lift r, st)
      | ICache max_age io => eval_cached max_age io c st
      | IMap e m =>
          match eval e c st with
          | (Ok v, st) => (map_enum m v, st)
          | (Err er, st) => (Err er, st)
          end
      | IPipe e1 e2 =>
          match eval e1 c st with
          | (Ok v, st) => eval e2 (with_args v c) st
          | (Err er, st) => (Err er, st)
          end
      | IMerge l =>
          let '(rs, st) :=
            (fix go (l : list ir) (st : St) : list (result value error) * St :=
               match l with
               | [] => ([], st)
               | e :: t =>
                   let '(r, st) := eval e c st in
                   let '(rs, st) := go t st in (r :: rs, st)
               end) l st in
          (rmap merge_values (collect rs), st)
      | IDiscriminate d e =>
          match eval e c st with
          | (Ok v, st) =>
              (match resolve_type d v with Ok w => Ok w | Err m => Err (EDiscriminate m) end, st)
          | (Err er, st) => (Err er, st)
          end
      | IEntity m =>
          match path_arg c ["representations"] with
          | Some r =>
              match as_array (cow_value r) with
              | None => (Err (EEntity "expected `representations` arg as an array of _Any"), st)
              | Some l =>
                  match check_representations (map fst m) l with
                  | Err er => (Err er, st)
                  | Ok tasks =>
                      let '(rs, st) :=
                        (fix run (tasks : list (string * value)) (st : St) :
                           list (result value error) * St :=
                           match tasks with
                           | [] => ([], st)
                           | (n, repr) :: t =>
                               let '(r, st) :=
                                 (fix find (m : list (string * ir)) : outcome :=
                                    match m with
                                    | [] => (Err (EEntity ""), st)   (* ruled out above *)
                                    | (k, e) :: m =>
                                        if String.eqb n k then
                                          let '(r, st) := eval e (with_value repr c) st in
                                          (match r with
                                           | Ok v => match set_type_name n v with
                                                     | Ok w => Ok w
                                                     | Err msg => Err (EEntity msg)
                                                     end
                                           | Err er => Err er
                                           end, st)
                                        else find m
                                    end) m in
                               let '(rs, st) := run t st in (r :: rs, st)
                           end) tasks st in
                      (rmap VList (collect rs), st)
                  end
              end
          | None => (Err (EEntity "expected `representations` arg as an array of _Any"), st)
          end
      | IService sdl => (Ok (VObj [("sdl", VStr sdl)]), st)
      end.
  End Eval.

  (** src/core/ir/model.rs:168-208, [modify_inner]; the [Cache] arm runs it on the
      inner call. *)
  Fixpoint modify (f : ir -> option ir) (e : ir) {struct e} : ir :=
    match f e with
    | Some e' => e'
    | None =>
        match e with
        | IPipe e1 e2 => IPipe (modify f e1) (modify f e2)
        | IContextPath p => IContextPath p
        | IDynamic d => IDynamic d
        | IIO io => IIO io
        | ICache age io =>
            match (match f (IIO io) with Some e' => e' | None => IIO io end) with
            | IIO io' => ICache age io'
            | e' => e'
            end
        | IPath e p => IPath (modify f e) p
        | IProtect a e => IProtect a (modify f e)
        | IMap e m => IMap (modify f e) m
        | IDiscriminate d e => IDiscriminate d (modify f e)
        | IEntity m =>
            IEntity ((fix go (m : list (string * ir)) : list (string * ir) :=
               match m with [] => [] | (k, e) :: t => (k, modify f e) :: go t end) m)
        | IService s => IService s
        | IMerge l =>
            IMerge ((fix go (l : list ir) : list ir :=
               match l with [] => [] | e :: t => modify f e :: go t end) l)
        end
    end.

  (** src/core/ir/model.rs:125-130 *)
  Definition cache_wrap (max_age : Z) (e : ir) : ir :=
    modify (fun e => match e with IIO io => Some (ICache max_age io) | _ => None end) e.

  (** src/core/ir/model.rs:135-154: a [Merge]'s members are left alone. *)
  Fixpoint modify_io (f : IO -> IO) (e : ir) {struct e} : ir :=
    match e with
    | IIO io => IIO (f io)
    | ICache age io => ICache age (f io)
    | IDiscriminate d e => IDiscriminate d (modify_io f e)
    | IProtect a e => IProtect a (modify_io f e)
    | IPath e p => IPath (modify_io f e) p
    | IPipe e1 e2 => IPipe (modify_io f e1) (modify_io f e2)
    | IEntity m =>
        IEntity ((fix go (m : list (string * ir)) : list (string * ir) :=
           match m with [] => [] | (k, e) :: t => (k, modify_io f e) :: go t end) m)
    | IMap e m => IMap (modify_io f e) m
    | _ => e
    end.

  (** src/core/jit/transform/auth_planner.rs:55-85: the rewritten expression and
      the checks taken out of it, in order. *)
  Fixpoint update_ir (e : ir) {struct e} : ir * list auth :=
    match e with
    | IPath e p => let '(e', l) := update_ir e in (IPath e' p, l)
    | IProtect a e => let '(e', l) := update_ir e in (e', a :: l)
    | IPipe e1 e2 =>
        let '(e1', l1) := update_ir e1 in
        let '(e2', l2) := update_ir e2 in (IPipe e1' e2', l1 ++ l2)
    | IDiscriminate d e => let '(e', l) := update_ir e in (IDiscriminate d e', l)
    | IMerge es =>
        let '(es', l) :=
          (fix go (es : list ir) : list ir * list auth :=
             match es with
             | [] => ([], [])
             | e :: t =>
                 let '(e', l) := update_ir e in
                 let '(t', l') := go t in (e' :: t', l ++ l')
             end) es in
        (IMerge es', l)
    | _ => (e, [])
    end.

  (** src/core/jit/transform/auth_planner.rs:30-34 *)
  Definition before_chain (auths : list auth) : option ir :=
    match auths with
    | [] => None
    | a :: t => Some (IProtect (fold_left AAnd t a) (IDynamic (DValue VNull)))
    end.

  (** src/core/jit/transform/check_const.rs:18-33 *)
  Fixpoint is_const (e : ir) : bool :=
    match e with
    | IDynamic d => dynamic_is_const d
    | IIO _ => false
    | ICache _ _ => false
    | IPath e _ => is_const e
    | IContextPath _ => false
    | IProtect _ e => is_const e
    | IMap e _ => is_const e
    | IPipe e1 e2 => is_const e1 && is_const e2
    | IMerge l => forallb is_const l
    | IDiscriminate _ e => is_const e
    | IEntity m => forallb (fun kv => is_const (snd kv)) m
    | IService _ => true
    end.

  (** src/core/jit/transform/check_protected.rs:18-33 *)
  Fixpoint is_protected (e : ir) : bool :=
    match e with
    | IDynamic _ => false
    | IIO _ => false
    | ICache _ _ => false
    | IPath e _ => is_protected e
    | IContextPath _ => false
    | IProtect _ _ => true
    | IMap e _ => is_protected e
    | IPipe e1 e2 => is_protected e1 || is_protected e2
    | IMerge l => forallb is_protected l
    | IDiscriminate _ e => is_protected e
    | IEntity m => existsb (fun kv => is_protected (snd kv)) m
    | IService _ => false
    end.

  (** [Option::min] of src/core/jit/transform/check_cache.rs: [None] is least. *)
  Definition omin (a b : option Z) : option Z :=
    match a, b with
    | Some x, Some y => Some (Z.min x y)
    | _, _ => None
    end.

  (** src/core/jit/transform/check_cache.rs:18-34 *)
  Fixpoint check_cache (e : ir) : option Z :=
    match e with
    | IIO _ => None
    | ICache age _ => Some age
    | IPath e _ => check_cache e
    | IProtect _ e => check_cache e
    | IPipe e1 e2 => omin (check_cache e1) (check_cache e2)
    | IMerge l =>
        match l with
        | [] => None
        | e :: t => fold_left omin (map check_cache t) (check_cache e)
        end
    | IDiscriminate _ e => check_cache e
    | IEntity m =>
        match m with
        | [] => None
        | (_, e) :: t => fold_left omin (map (fun kv => check_cache (snd kv)) t) (check_cache e)
        end
    | IDynamic _ | IContextPath _ | IMap _ _ | IService _ => None
    end.

  (** src/core/jit/transform/check_dedupe.rs:17-33; [dedupe] is [IO::dedupe]
      (src/core/ir/model.rs:73-82). *)
  Fixpoint check_dedupe (dedupe : IO -> bool) (e : ir) : bool :=
    match e with
    | IIO io => dedupe io
    | ICache _ io => dedupe io
    | IPath e _ => check_dedupe dedupe e
    | IProtect _ e => check_dedupe dedupe e
    | IPipe e1 e2 => check_dedupe dedupe e1 && check_dedupe dedupe e2
    | IMerge l => forallb (check_dedupe dedupe) l
    | IDiscriminate _ e => check_dedupe dedupe e
    | IEntity m => forallb (fun kv => check_dedupe dedupe (snd kv)) m
    | IDynamic _ | IContextPath _ | IMap _ _ | IService _ => true
    end.
End Ir.
