(** Specification for C15 and C16. *)
From Coq Require Import String List.
From Verif Require Import Base AuthModel.
Import ListNotations.

(** When an expression of providers lets a request through, given which
    providers accept it. *)
Inductive grants (ok : provider -> Prop) : auth -> Prop :=
| G_provider : forall p, ok p -> grants ok (AProvider p)
| G_and : forall l r, grants ok l -> grants ok r -> grants ok (AAnd l r)
| G_or_l : forall l r, grants ok l -> grants ok (AOr l r)
| G_or_r : forall l r, grants ok r -> grants ok (AOr l r).

(** The providers of an expression, left to right. *)
Fixpoint providers (a : auth) : list provider :=
  match a with
  | AProvider p => [p]
  | AAnd l r | AOr l r => providers l ++ providers r
  end.

Inductive only_or : auth -> Prop :=
| OO_p : forall p, only_or (AProvider p)
| OO_or : forall l r, only_or l -> only_or r -> only_or (AOr l r).

Inductive only_and : auth -> Prop :=
| OA_p : forall p, only_and (AProvider p)
| OA_and : forall l r, only_and l -> only_and r -> only_and (AAnd l r).

(** How much an error says: nothing was sent; it could not be read; it was
    read and refused. *)
Definition severity (e : auth_error) : nat :=
  match e with EMissing => 0 | EParse _ => 1 | EInvalid => 2 end.

(** C16.  A key that can be used to check tokens, and that did check [token]. *)
Definition checked_by (ext : auth_ext) (token : string) (k : jwk) : Prop :=
  x_key_ok ext k = true /\ x_sig_ok ext token k = true /\
  exists alg, k_alg k = Some alg /\ x_alg_ok ext alg = true.

(** The key responsible for a token: the first one with the id named by the
    token, or, if it names none and that is allowed, any key of the set. *)
Definition responsible (ext : auth_ext) (o : jwt_options) (token : string) (k : jwk) : Prop :=
  (exists kid before after,
      x_header_kid ext token = Some (Some kid) /\ o_jwks o = before ++ k :: after /\
      k_id k = Some kid /\ (forall k', In k' before -> k_id k' <> Some kid))
  \/ (x_header_kid ext token = Some None /\ o_optional_kid o = true /\ In k (o_jwks o)).

Definition token_audience (c : jwt_claim) (a : string) : Prop :=
  match c_aud c with
  | None => False
  | Some (One x) => a = x
  | Some (Many l) => In a l
  end.

Definition permitted (o : jwt_options) (c : jwt_claim) : Prop :=
  (forall i, o_issuer o = Some i -> c_iss c = Some i) /\
  (o_audiences o <> [] -> exists a, token_audience c a /\ In a (o_audiences o)).
