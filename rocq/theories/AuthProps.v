(** Properties C15 and C16. *)
From Coq Require Import String ZArith List.
From Verif Require Import Base AuthModel AuthSpec AuthProofs.
Import ListNotations.
Open Scope string_scope.
Open Scope list_scope.

(** ** C15 *)

(** An expression of providers lets a request through exactly when the boolean
    combination of the providers' outcomes is true. *)
Theorem C15_succeeds_iff_boolean_combination :
  forall ext req a,
    verify ext a req = Succeed <-> grants (fun p => verify_provider ext p req = Succeed) a.
Proof. exact verify_grants. Qed.
Print Assumptions C15_succeeds_iff_boolean_combination.

(** A reported failure is the failure of one of its providers. *)
Theorem C15_error_is_some_providers_error :
  forall ext req a e,
    verify ext a req = Fail e ->
    exists p, In p (providers a) /\ verify_provider ext p req = Fail e.
Proof. exact verify_error_source. Qed.
Print Assumptions C15_error_is_some_providers_error.

(** An alternative of providers fails with the most severe of their failures. *)
Theorem C15_alternatives_report_most_severe :
  forall ext req a e,
    only_or a -> verify ext a req = Fail e ->
    forall p, In p (providers a) ->
    exists e', verify_provider ext p req = Fail e' /\ severity e' <= severity e.
Proof. exact only_or_severity. Qed.
Print Assumptions C15_alternatives_report_most_severe.

(** A conjunction of providers fails with the failure of the first failing one. *)
Theorem C15_conjunction_reports_first_failure :
  forall ext req a e,
    only_and a ->
    (verify ext a req = Fail e <->
     exists before p after, providers a = before ++ p :: after /\
       verify_provider ext p req = Fail e /\
       Forall (fun q => verify_provider ext q req = Succeed) before).
Proof. exact only_and_first. Qed.
Print Assumptions C15_conjunction_reports_first_failure.

(** Finding: unlike for alternatives, which failure a conjunction reports
    depends on the order of the providers. *)
Theorem C15_conjunction_severity_refuted :
  exists ext req p q,
    verify ext (AAnd (AProvider p) (AProvider q)) req = Fail EMissing /\
    verify ext (AAnd (AProvider q) (AProvider p)) req = Fail EInvalid.
Proof. exact and_order_refuted. Qed.
Print Assumptions C15_conjunction_severity_refuted.

(** Algebra of outcomes. *)
Theorem C15_outcome_laws :
  forall a b c,
    vand a (vand b c) = vand (vand a b) c /\ vor a (vor b c) = vor (vor a b) c /\
    vor a b = vor b a /\ vor a a = a /\ vand a a = a /\
    vand Succeed a = a /\ vand a Succeed = a /\ vor Succeed a = Succeed.
Proof. exact verification_laws. Qed.
Print Assumptions C15_outcome_laws.

(** The check built from a configuration requires every configured provider,
    and there is none exactly when no provider is configured. *)
Theorem C15_config_requires_every_provider :
  forall ext req hs ks a,
    auth_from_config hs ks = Some a ->
    (verify ext a req = Succeed <->
     Forall (fun p => verify_provider ext p req = Succeed) (providers_from_config hs ks)).
Proof. exact from_config_grants. Qed.
Print Assumptions C15_config_requires_every_provider.

Theorem C15_config_without_providers :
  forall hs ks, auth_from_config hs ks = None <-> hs = [] /\ ks = [].
Proof. exact from_config_none. Qed.
Print Assumptions C15_config_without_providers.

Definition ext15 : auth_ext :=
  {| x_htpasswd := fun h u p => (String.eqb h "file" && String.eqb u "u" && String.eqb p "p")%bool;
     x_header_kid := fun t => if String.eqb t "tok1" then Some (Some "k1")
                              else if String.eqb t "tok2" then Some None else None;
     x_key_ok := fun k => true;
     x_alg_ok := String.eqb "RS256";
     x_sig_ok := fun t k => Z.eqb (k_key k) 7;
     x_claims := fun t => Some {| c_aud := Some (Many ["a"; "b"]); c_iss := Some "me" |} |}.
Definition jwt15 (iss : option string) (auds : list string) (opt : bool) : jwt_options :=
  {| o_issuer := iss; o_audiences := auds; o_optional_kid := opt;
     o_jwks := [ {| k_id := Some "k0"; k_alg := Some "RS256"; k_key := 1 |};
                 {| k_id := Some "k1"; k_alg := Some "RS256"; k_key := 7 |} ] |}.
Definition req15 (basic : option (string * string)) (tok : option string) : request :=
  {| r_basic := Ok basic; r_bearer := Ok tok |}.

Example C15_witness :
  let a := AOr (AProvider (PBasic "file")) (AProvider (PJwt (jwt15 None [] false))) in
  verify ext15 a (req15 (Some ("u", "p")) None) = Succeed /\
  verify ext15 a (req15 None (Some "tok1")) = Succeed /\
  verify ext15 a (req15 None None) = Fail EMissing /\
  verify ext15 a (req15 (Some ("u", "q")) None) = Fail EInvalid /\ only_or a.
Proof. vm_compute. repeat split; repeat constructor. Qed.

Example C15_witness_and :
  let a := AAnd (AProvider (PBasic "file")) (AProvider (PJwt (jwt15 None [] false))) in
  only_and a /\ verify ext15 a (req15 (Some ("u", "p")) None) = Fail EMissing /\
  verify ext15 a (req15 (Some ("u", "p")) (Some "tok1")) = Succeed.
Proof. vm_compute. repeat split; repeat constructor. Qed.

(** ** C16 *)

(** A request passes a JWT provider exactly when it carries a bearer token
    checked by the key responsible for it and the token's claims are permitted. *)
Theorem C16_accepts_exactly_permitted_tokens :
  forall ext o req,
    verify_jwt ext o req = Succeed <->
    exists tok k c, r_bearer req = Ok (Some tok) /\ responsible ext o tok k /\
      checked_by ext tok k /\ x_claims ext tok = Some c /\ permitted o c.
Proof. exact verify_jwt_spec. Qed.
Print Assumptions C16_accepts_exactly_permitted_tokens.

(** The claim checks alone. *)
Theorem C16_claim_checks :
  forall o c, validate_claims o c = Succeed <-> permitted o c.
Proof. exact claims_spec. Qed.
Print Assumptions C16_claim_checks.

(** Finding: a provider built from a configuration carries neither issuer nor
    audiences, so every claim is permitted. *)
Theorem C16_config_permits_every_claim :
  forall hs ks o,
    In (PJwt o) (providers_from_config hs ks) -> forall c, permitted o c.
Proof. exact from_config_jwt. Qed.
Print Assumptions C16_config_permits_every_claim.

Example C16_witness :
  verify_jwt ext15 (jwt15 (Some "me") ["x"; "b"] false) (req15 None (Some "tok1")) = Succeed /\
  verify_jwt ext15 (jwt15 (Some "me") ["x"] false) (req15 None (Some "tok1")) = Fail EInvalid /\
  verify_jwt ext15 (jwt15 (Some "you") [] false) (req15 None (Some "tok1")) = Fail EInvalid /\
  verify_jwt ext15 (jwt15 None [] true) (req15 None (Some "tok2")) = Succeed /\
  verify_jwt ext15 (jwt15 None [] false) (req15 None (Some "tok2"))
    = Fail (EParse "Invalid Authorization Header").
Proof. vm_compute. repeat split. Qed.
