(** Specification vocabulary for the configuration file (C79): which entries say what. *)
From Verif.Model Require Import Config.
From Verif.Spec Require Export SpecSops.
Open Scope byte_scope.

Section Layout.
  Context (re : regex_engine) (ag : age_crate).

  (** A list of texts, each of which is a key; without the entry the list is empty. *)
  Definition lists {K} (o : option fvalue) (names : bytes -> K -> Prop) (l : list K) : Prop :=
    o = None /\ l = [] \/ exists ts, o = Some (FSeq (map FStr ts)) /\ Forall2 names ts l.
  Definition says_list {K} (es : fmap) (k : bytes) (names : bytes -> K -> Prop) (l : list K) : Prop :=
    silent es k /\ l = [] \/ exists ts, states es k (FSeq (map FStr ts)) /\ Forall2 names ts l.
  Definition names_age (s r : bytes) : Prop := ag_recipient ag s = Some r.
  Definition names_kms (s : bytes) (k : aws_key) : Prop := parse_aws_key s = Ok k.
  (** The keys of a rule: a table, or an array with the age keys and then the KMS keys. *)
  Inductive says_keys : fvalue -> keys -> Prop :=
  | sk_table es ks : says_list es (lit "age") names_age (ks_age ks) -> says_list es (lit "aws_kms") names_kms (ks_kms ks) -> says_keys (FMap es) ks
  | sk_array l ks : lists (nth_error l 0) names_age (ks_age ks) -> lists (nth_error l 1) names_kms (ks_kms ks) -> says_keys (FSeq l) ks.
  (** A rule: a table, or an array with the fields in order, of which only the last may be missing. *)
  Definition says_table (v : fvalue) (r : rule) : Prop :=
    exists es, v = FMap es
    /\ states es (lit "path_regex") (FStr (cr_path r)) /\ re_valid re (cr_path r) = true
    /\ match cr_only r with Some b => states es (lit "mac_only_encrypted") (FBool b) | None => silent es (lit "mac_only_encrypted") end
    /\ match cr_partial r with
       | Some p => exists kv, states es (lit "partial_encryption") (FMap [kv]) /\ says_rule (re_valid re) kv p
       | None => silent es (lit "partial_encryption")
       end
    /\ (silent es (lit "integration_keys") /\ cr_keys r = {| ks_age := []; ks_kms := [] |}
        \/ exists w, states es (lit "integration_keys") w /\ says_keys w (cr_keys r)).
  Definition says_array (v : fvalue) (r : rule) : Prop :=
    exists b kv p rest, v = FSeq (FStr (cr_path r) :: FBool b :: FMap [kv] :: rest) /\ re_valid re (cr_path r) = true
    /\ cr_only r = Some b /\ cr_partial r = Some p /\ says_rule (re_valid re) kv p
    /\ (rest = [] /\ cr_keys r = {| ks_age := []; ks_kms := [] |} \/ exists w rest', rest = w :: rest' /\ says_keys w (cr_keys r)).
  Definition says_creation_rule (v : fvalue) (r : rule) : Prop := says_table v r \/ says_array v r.
  Definition says_config (es : fmap) (rs : list rule) : Prop :=
    exists l, states es (lit "creation_rules") (FSeq l) /\ Forall2 says_creation_rule l rs.
  (** The names that mean something in a creation rule. *)
  Definition rule_fields : list bytes := [lit "path_regex"; lit "mac_only_encrypted"; lit "partial_encryption"; lit "integration_keys"].
End Layout.
