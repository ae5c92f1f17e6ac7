(** The text forms of AWS KMS keys: ARNs, key ids and private keys.
    Sources: crates/lib/src/integration/aws_kms/key_arn.rs, key_id.rs, private_key.rs. *)
From Verif.Model Require Import Bytes.
Open Scope byte_scope.

(** * The aws-arn crate (0.3.1, Cargo.lock:190-193)
    The crate itself is outside /repo.  What is used of it is written down here from its documentation:
    the accepted characters of its three identifier types and the splitting of an ARN at colons. *)

(** [Identifier::is_valid]: non-empty, printable ASCII without space, slash and colon. *)
Definition id_char (b : byte) : bool :=
  in_range "!" "~" b && negb (beqb b "/") && negb (beqb b ":").
Definition valid_identifier (s : bytes) : bool :=
  negb (bytes_eqb s []) && forallb id_char s.

(** [AccountIdentifier::is_valid]: twelve digits, or the literal aws. *)
Definition valid_account (s : bytes) : bool :=
  (Nat.eqb (List.length s) 12 && forallb is_digit s) || bytes_eqb s (lit "aws").

(** [ResourceIdentifier::is_valid]: non-empty printable ASCII. *)
Definition valid_resource (s : bytes) : bool :=
  negb (bytes_eqb s []) && forallb (in_range " " "~") s.

(** [FromStr] of the identifier types. *)
Definition checked (ok : bytes -> bool) (s : bytes) : outcome bytes :=
  if ok s then Ok s else Err EIntegration.
(** Empty components of an ARN are [None]. *)
Definition checked_opt (ok : bytes -> bool) (s : bytes) : outcome (option bytes) :=
  if bytes_eqb s [] then Ok None else omap Some (checked ok s).

(** [ResourceName]. *)
Record resource_name := {
  rn_partition : option bytes; rn_service : bytes; rn_region : option bytes;
  rn_account : option bytes; rn_resource : bytes }.

(** [FromStr for ResourceName]: at least six components separated by colons, the first being arn;
    the sixth and all later ones form the resource. *)
Definition parse_resource_name (s : bytes) : outcome resource_name :=
  match split_on ":" s with
  | prefix :: partition :: service :: region :: account :: r :: rest =>
      if bytes_eqb prefix (lit "arn") then
        let* p := checked_opt valid_identifier partition in
        let* sv := checked valid_identifier service in
        let* rg := checked_opt valid_identifier region in
        let* a := checked_opt valid_account account in
        let* res := checked valid_resource (join_with ":" (r :: rest)) in
        Ok {| rn_partition := p; rn_service := sv; rn_region := rg; rn_account := a; rn_resource := res |}
      else Err EIntegration
  | _ => Err EIntegration
  end.

(** * AwsKeyResourceName *)

(** [AwsKeyResourceName] (key_arn.rs:8-16). *)
Record aws_arn := {
  arn_partition : option bytes; arn_service : bytes; arn_region : bytes;
  arn_account : option bytes; arn_parent : option bytes; arn_key : bytes }.

(** [.expect(..)] on a parse result (key_arn.rs:45, 46, 49). *)
Definition expect_ok {A} (o : outcome A) : outcome A :=
  match o with Ok x => Ok x | _ => Panic end.

(** [TryFrom<ResourceName>] (key_arn.rs:28-62).  The three [expect]s abort before the missing region is looked
    at.  The region is kept as its text. *)
Definition arn_of_resource (rn : resource_name) : outcome aws_arn :=
  let* pk :=
    match rsplit_once "/" (rn_resource rn) with
    | Some (parent, key) =>
        let* p := expect_ok (checked valid_resource parent) in
        let* k := expect_ok (checked valid_identifier key) in
        Ok (Some p, k)
    | None => let* k := expect_ok (checked valid_identifier (rn_resource rn)) in Ok (None, k)
    end in
  match rn_region rn with
  | None => Err EIntegration
  | Some region =>
      Ok {| arn_partition := rn_partition rn; arn_service := rn_service rn; arn_region := region;
            arn_account := rn_account rn; arn_parent := fst pk; arn_key := snd pk |}
  end.

(** [FromStr for AwsKeyResourceName] (key_arn.rs:18-26). *)
Definition parse_arn (s : bytes) : outcome aws_arn :=
  let* rn := parse_resource_name s in arn_of_resource rn.

(** [push_identifier], [push_optional_identifier] (key_arn.rs:84-93). *)
Definition push_id (s : bytes) : bytes := s ++ [":"].
Definition push_opt_id (o : option bytes) : bytes := match o with Some s => push_id s | None => [] end.

(** [Display for AwsKeyResourceName] (key_arn.rs:63-95). *)
Definition arn_text (a : aws_arn) : bytes :=
  lit "arn:" ++ push_opt_id (arn_partition a) ++ push_id (arn_service a) ++ push_id (arn_region a)
  ++ push_opt_id (arn_account a)
  ++ match arn_parent a with Some p => p ++ ["/"] | None => [] end
  ++ arn_key a.

(** * AwsKeyId *)

(** [AwsKeyId] (key_id.rs:9-18). *)
Record aws_key := { ak_profile : bytes; ak_arn : aws_arn }.

(** [FromStr for AwsKeyId] (key_id.rs:20-36). *)
Definition parse_aws_key (s : bytes) : outcome aws_key :=
  match split_once "." s with
  | None => Err EIntegration
  | Some (profile, arn) => let* a := parse_arn arn in Ok {| ak_profile := profile; ak_arn := a |}
  end.

(** [Display for AwsKeyId] (key_id.rs:11). *)
Definition aws_key_text (k : aws_key) : bytes := ak_profile k ++ "." :: arn_text (ak_arn k).

(** * AwsPrivateKey *)

(** [AwsPrivateKey] (private_key.rs:7-13). *)
Record aws_secret := { as_profile : bytes; as_id : bytes; as_secret : bytes }.

(** [FromStr for AwsPrivateKey] (private_key.rs:15-47): the first three dot separated components; further
    components are ignored. *)
Definition parse_aws_secret (s : bytes) : outcome aws_secret :=
  match split_on "." s with
  | p :: i :: x :: _ => Ok {| as_profile := p; as_id := i; as_secret := x |}
  | _ => Err EIntegration
  end.

(** [Display for AwsPrivateKey] (private_key.rs:8). *)
Definition aws_secret_text (k : aws_secret) : bytes :=
  as_profile k ++ "." :: as_id k ++ "." :: as_secret k.

(** Equality of key ids (derived [PartialEq], key_id.rs:10, key_arn.rs:8). *)
Definition obytes_eqb (a b : option bytes) : bool :=
  match a, b with
  | Some x, Some y => bytes_eqb x y
  | None, None => true
  | _, _ => false
  end.
Definition aws_arn_eqb (a b : aws_arn) : bool :=
  obytes_eqb (arn_partition a) (arn_partition b) && bytes_eqb (arn_service a) (arn_service b)
  && bytes_eqb (arn_region a) (arn_region b) && obytes_eqb (arn_account a) (arn_account b)
  && obytes_eqb (arn_parent a) (arn_parent b) && bytes_eqb (arn_key a) (arn_key b).
Definition aws_key_eqb (a b : aws_key) : bool :=
  bytes_eqb (ak_profile a) (ak_profile b) && aws_arn_eqb (ak_arn a) (ak_arn b).
