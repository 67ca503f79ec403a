(** Vocabulary for the command that generates configurations (C94). *)
From Coq Require Import String Ascii Bool List.
From Verif Require Import Base TgModel.
Import ListNotations.
Open Scope string_scope.
Open Scope list_scope.

(** The folder that is reached from a folder by names and [".."], from the root downwards *)
Definition up (dir : list string) : list string := removelast dir.
Fixpoint walk (dir path : list string) : list string :=
  match path with
  | [] => dir
  | n :: t => walk (if String.eqb n ".." then up dir else dir ++ [n]) t
  end.
(** The names of folders and files *)
Definition plain (path : list string) : Prop := ~ In ".." path.

Section Events.
  Context {Json Cfg Method : Type}.
  Notation event := (event (Json := Json) (Cfg := Cfg) (Method := Method)).
  Notation request := (request (Json := Json) (Method := Method)).
  Notation source := (source (Json := Json) (Method := Method)).
  Definition writes (e : event) : Prop := exists p t, e = Wrote p t.
  (** The requests to servers, in their order *)
  Fixpoint requests (l : list event) : list request :=
    match l with
    | [] => []
    | Asked q :: t => q :: requests t
    | _ :: t => requests t
    end.
  (** The value of the last header whose name is [n] *)
  Fixpoint last_header (name value : string -> option string) (n : string) (l : list (string * string)) : option string :=
    match l with
    | [] => None
    | (k, v) :: t => match last_header name value n t with
                     | Some r => Some r
                     | None => match name k with Some k => if String.eqb k n then value v else None | None => None end
                     end
    end.
  (** [q] is the request that the input describes. *)
  Definition asks (url : string -> option string) (null : Json -> bool) (get : Method) (name value : string -> option string) (s : source) (q : request) : Prop :=
    match s with
    | Curl src headers method body _ _ =>
        url src = Some (q_url q) /\ q_method q = match method with Some m => m | None => get end /\
        (forall b, q_body q = Some b <-> body = Some b /\ null b = false) /\
        (forall n, aget n (q_headers q) = last_header name value n (match headers with Some l => l | None => [] end))
    | _ => False
    end.
  Definition is_curl (s : source) : bool := match s with Curl _ _ _ _ _ _ => true | _ => false end.
End Events.

(** Where a place in the file of the command is: URLs and absolute paths as they are, others from the folder of that file; [real] is for paths that exist, [clean] takes [".."] out of those that do not. *)
Section Places.
  Variable url real : string -> option string.
  Variable cwd : string.
  Variable clean : string -> string.
  Inductive located (folder : string) : string -> string -> Prop :=
  | L_url : forall p u, url p = Some u -> located folder p p
  | L_absolute : forall p, located folder ("/" ++ p) ("/" ++ p)
  | L_real : forall p q, url p = None -> prefix "/" p = false -> real (folder ++ "/" ++ p)%string = Some q -> located folder p q
  | L_new : forall p, url p = None -> prefix "/" p = false -> real (folder ++ "/" ++ p)%string = None -> located folder p (clean (cwd ++ "/" ++ folder ++ "/" ++ p)%string).
  Inductive source_located {Json Method : Type} (folder : string) : source (Json := Json) (Method := Method) -> source (Json := Json) (Method := Method) -> Prop :=
  | L_curl : forall p q h m b i f, located folder p q -> source_located folder (Curl p h m b i f) (Curl q h m b i f)
  | L_proto : forall p q u c, located folder p q -> source_located folder (Proto p u None c) (Proto q u None c)
  | L_proto_paths : forall p q u ps qs c, located folder p q -> Forall2 (located folder) ps qs -> source_located folder (Proto p u (Some ps) c) (Proto q u (Some qs) c)
  | L_config : forall p q, located folder p q -> source_located folder (Config p) (Config q).
End Places.
