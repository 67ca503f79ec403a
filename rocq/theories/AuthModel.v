(** Authentication: src/core/auth and src/core/blueprint/auth.rs. *)
From Coq Require Import String Ascii ZArith Bool List.
From Verif Require Import Base.
Import ListNotations.
Open Scope string_scope.
Open Scope list_scope.

(** src/core/auth/error.rs:1-11 *)
Inductive auth_error : Type :=
| EMissing
| EParse (s : string)
| EInvalid.

(** The derived [Ord] of src/core/auth/error.rs:1: declaration order of the
    variants, then the payload ([str] compares bytewise). *)
Definition error_cmp (a b : auth_error) : comparison :=
  match a, b with
  | EMissing, EMissing => Eq
  | EMissing, _ => Lt
  | EParse _, EMissing => Gt
  | EParse s, EParse t => String.compare s t
  | EParse _, EInvalid => Lt
  | EInvalid, EInvalid => Eq
  | EInvalid, _ => Gt
  end.

(** [std::cmp::max]: the second argument unless the first is greater. *)
Definition error_max (a b : auth_error) : auth_error :=
  match error_cmp a b with Gt => a | _ => b end.

(** src/core/auth/verification.rs:9-12 *)
Inductive verification : Type :=
| Succeed
| Fail (e : auth_error).

(** src/core/auth/verification.rs:23-28 *)
Definition vfold (v on_success : verification) (on_error : auth_error -> verification) : verification :=
  match v with Succeed => on_success | Fail e => on_error e end.

(** src/core/auth/verification.rs:30-37 *)
Definition vor (v other : verification) : verification :=
  match v with
  | Succeed => Succeed
  | Fail this => vfold other Succeed (fun that => Fail (error_max this that))
  end.

(** src/core/auth/verification.rs:39-44 *)
Definition vand (v other : verification) : verification :=
  match v with Succeed => other | Fail _ => v end.

(** src/core/auth/verification.rs:57-62 *)
Definition to_result (v : verification) : result unit auth_error :=
  match v with Succeed => Ok tt | Fail e => Err e end.

(** src/core/auth/jwt/jwt_verify.rs:14-23 *)
Inductive one_or_many : Type := One (s : string) | Many (l : list string).
Record jwt_claim := { c_aud : option one_or_many; c_iss : option string }.

(** jsonwebtoken's [Jwk], reduced to the key id, the declared algorithm and an
    opaque key. *)
Record jwk := { k_id : option string; k_alg : option string; k_key : Z }.

(** src/core/blueprint/auth.rs:13-19 *)
Record jwt_options := {
  o_issuer : option string;
  o_audiences : list string;     (* HashSet<String> *)
  o_optional_kid : bool;
  o_jwks : list jwk              (* JwkSet *)
}.

(** src/core/blueprint/auth.rs:8-11, 21-25 *)
Inductive provider : Type :=
| PBasic (htpasswd : string)
| PJwt (o : jwt_options).

(** src/core/blueprint/auth.rs:69-74 *)
Inductive auth : Type :=
| AProvider (p : provider)
| AAnd (l r : auth)
| AOr (l r : auth).

(** src/core/auth/jwt/jwt_verify.rs:81-93 *)
Definition validate_iss (o : jwt_options) (c : jwt_claim) : bool :=
  match o_issuer o with
  | None => true
  | Some issuer =>
      match c_iss c with Some iss => String.eqb iss issuer | None => false end
  end.

(** src/core/auth/jwt/jwt_verify.rs:95-112 *)
Definition validate_aud (o : jwt_options) (c : jwt_claim) : bool :=
  match o_audiences o with
  | [] => true
  | _ =>
      match c_aud c with
      | None => false
      | Some (One aud) => smem aud (o_audiences o)
      | Some (Many auds) => existsb (fun aud => smem aud (o_audiences o)) auds
      end
  end.

(** The [authorization] header as the [headers] crate reads it: absent,
    unreadable at the requested scheme, or read. *)
Record request := {
  r_basic : result (option (string * string)) unit;
  r_bearer : result (option string) unit
}.

(** Calls into external crates.  [x_htpasswd]: htpasswd_verify's check.
    [x_header_kid]: [decode_header], the [kid] of a readable token header.
    [x_key_ok]: [DecodingKey::from_jwk].  [x_alg_ok]: [Algorithm::from_str].
    [x_sig_ok]: signature, algorithm and time checks of [decode] with a key.
    [x_claims]: the claims carried by the token.  The error texts are opaque. *)
Record auth_ext := {
  x_htpasswd : string -> string -> string -> bool;
  x_header_kid : string -> option (option string);
  x_key_ok : jwk -> bool;
  x_alg_ok : string -> bool;
  x_sig_ok : string -> jwk -> bool;
  x_claims : string -> option jwt_claim
}.

Section Verify.
  Variable ext : auth_ext.

  (** src/core/auth/jwt/jwks.rs:24-39 *)
  Definition decode_with_jwk (token : string) (k : jwk) : result jwt_claim auth_error :=
    if negb (x_key_ok ext k) then Err (EParse "key")
    else match k_alg k with
         | None => Err (EParse "Key algorithm is not specified in JWKS")
         | Some a =>
             if negb (x_alg_ok ext a) then Err (EParse "algorithm")
             else if x_sig_ok ext token k then
                    match x_claims ext token with
                    | Some c => Ok c
                    | None => Err EInvalid
                    end
                  else Err EInvalid
         end.

  (** jsonwebtoken's [JwkSet::find]: the first key with that id. *)
  Fixpoint find_kid (kid : string) (ks : list jwk) : option jwk :=
    match ks with
    | [] => None
    | k :: t =>
        match k_id k with
        | Some i => if String.eqb i kid then Some k else find_kid kid t
        | None => find_kid kid t
        end
    end.

  (** the loop of src/core/auth/jwt/jwks.rs:57-63 *)
  Fixpoint try_keys (token : string) (ks : list jwk) : result jwt_claim auth_error :=
    match ks with
    | [] => Err EInvalid
    | k :: t =>
        match decode_with_jwk token k with
        | Ok c => Ok c
        | Err _ => try_keys token t
        end
    end.

  (** src/core/auth/jwt/jwks.rs:41-65 *)
  Definition decode (o : jwt_options) (token : string) : result jwt_claim auth_error :=
    match x_header_kid ext token with
    | None => Err EInvalid
    | Some (Some kid) =>
        match find_kid kid (o_jwks o) with
        | None => Err (EParse "Couldn't find JWK entry with specified kid")
        | Some k => decode_with_jwk token k
        end
    | Some None =>
        if negb (o_optional_kid o) then Err EInvalid else try_keys token (o_jwks o)
    end.

  (** The text of an error (src/core/auth/error.rs, [thiserror] display). *)
  Definition error_text (e : auth_error) : string :=
    match e with
    | EMissing => "Missing Authorization Header"
    | EParse s => s
    | EInvalid => "Invalid Authorization Header"
    end.

  (** src/core/auth/jwt/jwt_verify.rs:57-63 *)
  Definition validate_claims (o : jwt_options) (c : jwt_claim) : verification :=
    if negb (validate_iss o c) || negb (validate_aud o c) then Fail EInvalid else Succeed.

  (** src/core/auth/jwt/jwt_verify.rs:49-55, 66-79 *)
  Definition verify_jwt (o : jwt_options) (req : request) : verification :=
    match r_bearer req with
    | Err _ => Fail EInvalid
    | Ok None => Fail EMissing
    | Ok (Some token) =>
        match decode o token with
        | Ok c => validate_claims o c
        | Err e => Fail (EParse (error_text e))
        end
    end.

  (** src/core/auth/basic.rs:16-35 *)
  Definition verify_basic (htpasswd : string) (req : request) : verification :=
    match r_basic req with
    | Err _ => Fail EInvalid
    | Ok None => Fail EMissing
    | Ok (Some (u, p)) => if x_htpasswd ext htpasswd u p then Succeed else Fail EInvalid
    end.

  (** src/core/auth/verify.rs:49-56 *)
  Definition verify_provider (p : provider) (req : request) : verification :=
    match p with
    | PBasic h => verify_basic h req
    | PJwt o => verify_jwt o req
    end.

  (** src/core/auth/verify.rs:34-46, 59-72.  [AuthVerifier] is the same tree as
      [Auth]; both operands are always evaluated and have no effect, so the
      [join!] is modelled by evaluating both. *)
  Fixpoint verify (a : auth) (req : request) : verification :=
    match a with
    | AProvider p => verify_provider p req
    | AAnd l r => vand (verify l req) (verify r req)
    | AOr l r => vor (verify l req) (verify r req)
    end.
End Verify.

(** src/core/blueprint/auth.rs:27-67: the providers of a configuration are its
    htpasswd files followed by its key sets. *)
Definition providers_from_config (htpasswds : list string) (jwkss : list (list jwk)) : list provider :=
  map PBasic htpasswds ++
  map (fun ks => PJwt {| o_issuer := None; o_audiences := []; o_optional_kid := false; o_jwks := ks |}) jwkss.

(** src/core/blueprint/auth.rs:77-82 ([reduce] with [and]). *)
Definition auth_from_config (htpasswds : list string) (jwkss : list (list jwk)) : option auth :=
  match map AProvider (providers_from_config htpasswds jwkss) with
  | [] => None
  | a :: t => Some (fold_left AAnd t a)
  end.
