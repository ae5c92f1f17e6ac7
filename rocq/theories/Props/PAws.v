(** Properties of AWS key texts: C43, C44, C54. *)
From Verif.Model Require Import Bytes Aws.
From Verif.Spec Require Import SpecAws.
From Verif.Proofs Require Import BytesFacts AwsFacts.
Open Scope byte_scope.

Definition ex_key_text : bytes := lit "default.arn:aws:kms:eu-north-1:822284028627:key/a219f9b1-f371-466a-9143-7adff993aa05".

(** ** C43 *)

(** Full statement: [forall s k, parse_aws_key s = Ok k -> parse_aws_key (aws_key_text k) = Ok k].  It fails for a key whose ARN has no
    account (or no partition): the text written is not an ARN any more. *)
Theorem C43_key_id_refuted : exists s k, parse_aws_key s = Ok k /\ parse_aws_key (aws_key_text k) = Err EIntegration.
Proof.
  exists (lit "default.arn:aws:kms:eu-north-1::alias/backup").
  exists {| ak_profile := lit "default";
            ak_arn := {| arn_partition := Some (lit "aws"); arn_service := lit "kms"; arn_region := lit "eu-north-1";
                         arn_account := None; arn_parent := Some (lit "alias"); arn_key := lit "backup" |} |}.
  split; vm_compute; reflexivity.
Qed.
Print Assumptions C43_key_id_refuted.

(** It can also be read back, without any error, as a different key in a different region. *)
Theorem C43_key_id_silent_refuted : exists s k k', parse_aws_key s = Ok k /\ parse_aws_key (aws_key_text k) = Ok k'
  /\ arn_region (ak_arn k) = lit "eu-north-1" /\ arn_region (ak_arn k') = lit "822284028627".
Proof.
  exists (lit "default.arn::kms:eu-north-1:822284028627::key/backup").
  exists {| ak_profile := lit "default";
            ak_arn := {| arn_partition := None; arn_service := lit "kms"; arn_region := lit "eu-north-1";
                         arn_account := Some (lit "822284028627"); arn_parent := Some (lit ":key"); arn_key := lit "backup" |} |}.
  exists {| ak_profile := lit "default";
            ak_arn := {| arn_partition := Some (lit "kms"); arn_service := lit "eu-north-1"; arn_region := lit "822284028627";
                         arn_account := None; arn_parent := Some (lit "key"); arn_key := lit "backup" |} |}.
  repeat split; vm_compute; reflexivity.
Qed.
Print Assumptions C43_key_id_silent_refuted.

(** What holds: a parsed key id reads back from its text exactly when its ARN names both partition and account. *)
Theorem C43_key_id_partial : forall s k, parse_aws_key s = Ok k ->
  (parse_aws_key (aws_key_text k) = Ok k <-> arn_partition (ak_arn k) <> None /\ arn_account (ak_arn k) <> None).
Proof. exact aws_key_round_trip. Qed.
Print Assumptions C43_key_id_partial.

Example C43_case : exists k, parse_aws_key ex_key_text = Ok k /\ aws_key_text k = ex_key_text
  /\ arn_partition (ak_arn k) = Some (lit "aws") /\ arn_account (ak_arn k) = Some (lit "822284028627").
Proof.
  exists {| ak_profile := lit "default";
            ak_arn := {| arn_partition := Some (lit "aws"); arn_service := lit "kms"; arn_region := lit "eu-north-1";
                         arn_account := Some (lit "822284028627"); arn_parent := Some (lit "key");
                         arn_key := lit "a219f9b1-f371-466a-9143-7adff993aa05" |} |}.
  repeat split; vm_compute; reflexivity.
Qed.

(** ** C44 *)

(** Full statement: [forall s, parse_aws_key s <> Panic].  It fails for an ARN ending in a slash. *)
Theorem C44_no_abort_refuted : exists s, parse_aws_key s = Panic.
Proof. exists (lit "default.arn:aws:kms:eu-north-1:822284028627:key/"). vm_compute. reflexivity. Qed.
Print Assumptions C44_no_abort_refuted.

(** What holds: the only texts that abort are ARNs whose resource part is not a key id or a path followed by a key id. *)
Theorem C44_no_abort_partial : forall s, parse_aws_key s = Panic ->
  exists profile p sv rg a res, s = profile ++ "." :: join_with ":" [lit "arn"; p; sv; rg; a; res] /\ ~ splittable res.
Proof. exact parse_key_panic. Qed.
Print Assumptions C44_no_abort_partial.

(** And every otherwise well-formed one of them does abort. *)
Theorem C44_aborts_exact_partial : forall profile p sv rg a res, ~ In "." profile -> arn_component p -> arn_component sv -> arn_component rg -> valid_account a = true ->
  res <> [] -> (forall b, In b res -> (32 <= Byte.to_N b <= 126)%N) -> ~ splittable res ->
  parse_aws_key (profile ++ "." :: join_with ":" [lit "arn"; p; sv; rg; a; res]) = Panic.
Proof. exact parse_key_aborts. Qed.
Print Assumptions C44_aborts_exact_partial.

(** Three more texts that abort: an alias with a colon, a resource with a space, an empty path. *)
Example C44_cases :
  parse_aws_key (lit "default.arn:aws:kms:eu-north-1:822284028627:alias:backup") = Panic
  /\ parse_aws_key (lit "default.arn:aws:kms:eu-north-1:822284028627:my key") = Panic
  /\ parse_aws_key (lit "default.arn:aws:kms:eu-north-1:822284028627:/key") = Panic
  /\ parse_aws_key (lit "default.arn:aws:kms:eu-north-1:822284028627") = Err EIntegration
  /\ parse_aws_key (lit "arn:aws:kms:eu-north-1:822284028627:key/x") = Err EIntegration.
Proof. repeat split; vm_compute; reflexivity. Qed.

(** ** C54 *)

Theorem C54_three_parts : forall p i x, ~ In "." p -> ~ In "." i -> ~ In "." x ->
  parse_aws_secret (p ++ "." :: i ++ "." :: x) = Ok {| as_profile := p; as_id := i; as_secret := x |}.
Proof. exact aws_secret_exact. Qed.
Print Assumptions C54_three_parts.

Theorem C54_fewer_rejected : forall s, (count_occ Byte.byte_eq_dec s "." < 2)%nat -> exists e, parse_aws_secret s = Err e.
Proof. exact aws_secret_few. Qed.
Print Assumptions C54_fewer_rejected.

Theorem C54_round_trip : forall s k, parse_aws_secret s = Ok k -> parse_aws_secret (aws_secret_text k) = Ok k.
Proof. exact aws_secret_round_trip. Qed.
Print Assumptions C54_round_trip.

(** The last case shows what the statement leaves open: further components are dropped, so a secret with a dot is cut. *)
Example C54_case :
  parse_aws_secret (lit "default.AKIAEXAMPLE.wJalr/K7+x") = Ok {| as_profile := lit "default"; as_id := lit "AKIAEXAMPLE"; as_secret := lit "wJalr/K7+x" |}
  /\ parse_aws_secret (lit "default.AKIAEXAMPLE") = Err EIntegration
  /\ parse_aws_secret (lit "default.AKIAEXAMPLE.wJalr.K7") = Ok {| as_profile := lit "default"; as_id := lit "AKIAEXAMPLE"; as_secret := lit "wJalr" |}.
Proof. repeat split; vm_compute; reflexivity. Qed.
