(** Specification vocabulary for who can open a file (C68, C72). *)
From Verif.Model Require Import Cli.
From Verif.Spec Require Export SpecCli.
Open Scope byte_scope.

(** The file has a recipient. *)
Definition somebody (rc : recipients) : Prop := rc_age rc <> [] \/ rc_kms rc <> [].
(** An available private key belongs to a recipient. *)
Definition holds_key (ag : age_crate) (E : env) (rc : recipients) : Prop :=
  (exists ids i, age_available ag E ids /\ In i ids /\ In (ag_public ag i) (map u_key (rc_age rc)))
  \/ (exists ks c u, kms_available E ks /\ In c ks /\ In u (rc_kms rc) /\ as_profile c = ak_profile (u_key u)).
(** The recipients of a file that are not among the given keys. *)
Definition remaining (ks : keys) (rc rc' : recipients) : Prop :=
  (forall r, In r (map u_key (rc_age rc')) <-> In r (map u_key (rc_age rc)) /\ ~ In r (ks_age ks))
  /\ (forall k, In k (map u_key (rc_kms rc')) <-> In k (map u_key (rc_kms rc)) /\ ~ In k (ks_kms ks)).
(** The format a command takes its input to be in. *)
Definition format_of (c : command) : outcome fmt :=
  match c with
  | Encrypt a => get_format (in_file (ea_input a)) (in_format (ea_input a))
  | Decrypt a | Refresh a => get_format (in_file (pl_input a)) (in_format (pl_input a))
  | Edit a => get_format (in_file a) (in_format a)
  | AddKeys a | RemoveKeys a => get_format (Some (ka_file a)) (ka_format a)
  end.
(** The command reads an encrypted file to show it or to change it. *)
Definition uses_file (c : command) : Prop := match c with Encrypt _ | Refresh _ => False | _ => True end.
(** The service decrypts what it encrypted a moment ago. *)
Definition kms_again (E : env) : Prop := forall n req key b, e_kms_encrypt E n req key = KmsBlob b -> e_kms_decrypt E req b = KmsBlob key.
(** Whom a command encrypts for: its keys and those of the first rule for the file, or the rule's only. *)
Inductive named_keys (re : regex_engine) (rules : list rule) : command -> list bytes -> list aws_key -> Prop :=
| nk_rule a r : first_matching re rules (path_to_match (in_file (ea_input a))) r ->
    named_keys re rules (Encrypt a) (ks_age (ea_keys a) ++ ks_age (cr_keys r)) (ks_kms (ea_keys a) ++ ks_kms (cr_keys r))
| nk_own a : (forall r, In r rules -> re_match re (cr_path r) (path_to_match (in_file (ea_input a))) = false) -> named_keys re rules (Encrypt a) (ks_age (ea_keys a)) (ks_kms (ea_keys a))
| nk_refresh a r : first_matching re rules (path_to_match (in_file (pl_input a))) r -> named_keys re rules (Refresh a) (ks_age (cr_keys r)) (ks_kms (cr_keys r)).
