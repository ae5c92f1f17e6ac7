(** Specification vocabulary for the layout of files (C76): which entries say what.  The names are those of SOPS; nothing here uses the
    names or the readers of the model, except for the texts of single values (encrypted values: C04; ARNs: C43). *)
From Verif.Model Require Import Document.
From Verif.Spec Require Export SpecDocument.
Open Scope byte_scope.

(** There is one entry of this name, and it has this value; or none. *)
Definition states (es : fmap) (k : bytes) (v : fvalue) : Prop := exists a b, es = a ++ (FStr k, v) :: b /\ ~ In (FStr k) (map fst (a ++ b)).
Definition silent (es : fmap) (k : bytes) : Prop := ~ In (FStr k) (map fst es).

Section Layout.
  Context (re_valid : bytes -> bool) (ag : age_crate) (cd : codec).

  (** A recipient: its name, when it was added, if that is known, and the data key wrapped for it. *)
  Definition says_created (es : fmap) (o : option timestamp) : Prop :=
    match o with
    | Some t => exists s, states es (lit "created_at") (FStr s) /\ cd_time cd s = Some t
    | None => silent es (lit "created_at") \/ states es (lit "created_at") FNull
    end.
  Definition says_age (v : fvalue) (u : wrapped bytes) : Prop :=
    exists es r, v = FMap es /\ states es (lit "recipient") (FStr r) /\ ag_recipient ag r = Some (u_key u)
    /\ says_created es (u_created u) /\ states es (lit "enc") (FStr (u_enc u)).
  Definition says_kms (v : fvalue) (u : wrapped aws_key) : Prop :=
    exists es a, v = FMap es /\ states es (lit "aws_profile") (FStr (ak_profile (u_key u))) /\ states es (lit "arn") (FStr a) /\ parse_arn a = Ok (ak_arn (u_key u))
    /\ says_created es (u_created u) /\ states es (lit "enc") (FStr (u_enc u)).
  (** Of several entries for one recipient the last one counts. *)
  Definition latest {K} (ws us : list (wrapped K)) : Prop :=
    NoDup (map u_key us) /\ forall u, In u us <-> exists a b, ws = a ++ u :: b /\ ~ In (u_key u) (map u_key b).
  Definition says_recipients {K} (es : fmap) (k : bytes) (says : fvalue -> wrapped K -> Prop) (us : list (wrapped K)) : Prop :=
    silent es k /\ us = [] \/ exists l ws, states es k (FSeq l) /\ Forall2 says l ws /\ latest ws us.

  (** The rule.  The first entry with one of the four names counts; if it can not be used there is no rule (C57). *)
  Definition rule_names : list bytes := [lit "encrypted_suffix"; lit "encrypted_regex"; lit "unencrypted_suffix"; lit "unencrypted_regex"].
  Inductive says_rule : fvalue * fvalue -> partial -> Prop :=
  | sr_esuffix s : says_rule (FStr (lit "encrypted_suffix"), FStr s) (EncryptedSuffix s)
  | sr_eregex s : re_valid s = true -> says_rule (FStr (lit "encrypted_regex"), FStr s) (EncryptedRegex s)
  | sr_usuffix s : says_rule (FStr (lit "unencrypted_suffix"), FStr s) (UnencryptedSuffix s)
  | sr_uregex s : re_valid s = true -> says_rule (FStr (lit "unencrypted_regex"), FStr s) (UnencryptedRegex s).
  Definition named_rule (kv : fvalue * fvalue) : Prop := exists n, In n rule_names /\ fst kv = FStr n.
  Definition says_scope (es : fmap) (o : option partial) : Prop :=
    (exists a e b, es = a ++ e :: b /\ (forall kv, In kv a -> ~ named_rule kv) /\ named_rule e
       /\ match o with Some p => says_rule e p | None => forall p, ~ says_rule e p end)
    \/ (forall kv, In kv es -> ~ named_rule kv) /\ o = None.

  (** The metadata. *)
  Definition says_meta (es : fmap) (md : meta evalue) : Prop :=
    (exists s, states es (lit "lastmodified") (FStr s) /\ cd_time cd s = Some (md_modified md))
    /\ (exists s, states es (lit "mac") (FStr s) /\ parse_evalue s = Ok (md_mac md))
    /\ match md_only md with
       | Some b => states es (lit "mac_only_encrypted") (FBool b)
       | None => silent es (lit "mac_only_encrypted") \/ states es (lit "mac_only_encrypted") FNull
       end
    /\ says_recipients es (lit "kms") says_kms (rc_kms (md_recipients md))
    /\ says_recipients es (lit "age") says_age (rc_age (md_recipients md))
    /\ says_scope es (md_partial md).

  (** The same metadata, up to the order of recipients. *)
  Definition same_meta (a b : meta evalue) : Prop :=
    md_modified a = md_modified b /\ md_mac a = md_mac b /\ md_only a = md_only b /\ md_partial a = md_partial b
    /\ (forall u, In u (rc_kms (md_recipients a)) <-> In u (rc_kms (md_recipients b))) /\ (forall u, In u (rc_age (md_recipients a)) <-> In u (rc_age (md_recipients b))).
End Layout.
