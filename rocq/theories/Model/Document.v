(** Files as text: the layout of the document and its metadata, writing and reading.
    Sources: crates/lib/src/file/core.rs:8-19, 60-77, file/format/map.rs:7-15, 62-85, file/metadata/core.rs:8-25,
    metadata/integration/{core,unit,units}.rs, metadata/partial_encryption.rs:4-13, integration/age.rs, integration/aws_kms/{config,key_id}.rs
    and the code serde derives for them.

    The grammars of YAML, JSON and TOML are a parameter.  serde's derived code is modelled on the entries the grammar delivers.
    Simplification: if several things are wrong with a text, which of the errors is reported is not modelled. *)
From Verif.Model Require Export File.
Open Scope byte_scope.

(** serde_yaml, serde_json and toml (format/yaml/mod.rs:25-31, json/mod.rs:21-27, toml/mod.rs:24-30), and chrono's [Deserialize].
    [cd_write] prints a list of entries; serde streams them, so a key may occur twice.  [cd_read] gives the entries of the top-level
    map in the order of the text, maps inside values likewise. *)
Record codec := {
  cd_write : fmt -> fmap -> outcome bytes;
  cd_read : fmt -> bytes -> outcome fmap;
  cd_time : bytes -> option timestamp }.

(** * Writing *)

(** Three decimal digits. *)
Definition pad3 (n : N) : bytes := digit (n / 100) :: pad2 (n mod 100).
(** chrono's [Serialize for DateTime<Utc>]: RFC 3339 with [SecondsFormat::AutoSi]: no, three, six or nine digits of fraction.
    Timestamps are transparent (timestamp.rs:6-8, last_modified.rs, created_at.rs). *)
Definition fraction_text (n : N) : bytes :=
  if (n =? 0)%N then []
  else if (n mod 1000000 =? 0)%N then "." :: pad3 (n / 1000000)
  else if (n mod 1000 =? 0)%N then "." :: pad3 (n / 1000000) ++ pad3 (n / 1000 mod 1000)
  else "." :: pad3 (n / 1000000) ++ pad3 (n / 1000 mod 1000) ++ pad3 (n mod 1000).
Definition time_text (t : timestamp) : bytes :=
  year_text (t_year t) ++ "-" :: pad2 (t_month t) ++ "-" :: pad2 (t_day t) ++ "T" :: pad2 (t_hour t)
  ++ ":" :: pad2 (t_min t) ++ ":" :: pad2 (shown_sec t) ++ fraction_text (t_nano t mod 1000000000) ++ ["Z"].

(** An entry with a string key; an optional one ([skip_serializing_if], [skip_serializing_none]). *)
Definition field (k : bytes) (v : fvalue) : fvalue * fvalue := (FStr k, v).
Definition opt_field {A} (k : bytes) (o : option A) (v : A -> fvalue) : fmap :=
  match o with Some a => [field k (v a)] | None => [] end.

(** The names of the metadata fields (metadata/core.rs:16-24, integration/core.rs:6-15, unit.rs:8-13, age.rs:80-84,
    aws_kms/config.rs, key_id.rs:9-18, partial_encryption.rs:4-13, file/core.rs:17). *)
Definition k_sops : bytes := lit "sops".
Definition k_kms : bytes := lit "kms".
Definition k_age : bytes := lit "age".
Definition k_modified : bytes := lit "lastmodified".
Definition k_mac : bytes := lit "mac".
Definition k_only : bytes := lit "mac_only_encrypted".
Definition k_created : bytes := lit "created_at".
Definition k_enc : bytes := lit "enc".
Definition k_recipient : bytes := lit "recipient".
Definition k_profile : bytes := lit "aws_profile".
Definition k_arn : bytes := lit "arn".
Definition k_esuffix : bytes := lit "encrypted_suffix".
Definition k_eregex : bytes := lit "encrypted_regex".
Definition k_usuffix : bytes := lit "unencrypted_suffix".
Definition k_uregex : bytes := lit "unencrypted_regex".

(** unit.rs:5-14 with the flattened configuration of the integration. *)
Definition unit_value {K} (config : K -> fmap) (u : wrapped K) : fvalue :=
  FMap (config (u_key u) ++ opt_field k_created (u_created u) (fun t => FStr (time_text t)) ++ [field k_enc (FStr (u_enc u))]).
(** age.rs:80-84 [AgeConfig]. *)
Definition age_config (r : bytes) : fmap := [field k_recipient (FStr r)].
(** aws_kms/config.rs [AwsKmsConfig], key_id.rs:9-18. *)
Definition kms_config (k : aws_key) : fmap := [field k_profile (FStr (ak_profile k)); field k_arn (FStr (arn_text (ak_arn k)))].
(** integration/core.rs:5-15, units.rs:24-34: no entry for an integration without units. *)
Definition units_field {K} (k : bytes) (config : K -> fmap) (us : list (wrapped K)) : fmap :=
  match us with [] => [] | _ => [field k (FSeq (map (unit_value config) us))] end.
(** partial_encryption.rs:4-13: an externally tagged enum. *)
Definition rule_field (p : partial) : fvalue * fvalue :=
  match p with
  | EncryptedSuffix s => field k_esuffix (FStr s)
  | EncryptedRegex s => field k_eregex (FStr s)
  | UnencryptedSuffix s => field k_usuffix (FStr s)
  | UnencryptedRegex s => field k_uregex (FStr s)
  end.
(** metadata/core.rs:8-25; [mac] is the displayed MAC. *)
Definition meta_entries {M} (mac : M -> bytes) (md : meta M) : fmap :=
  units_field k_kms kms_config (rc_kms (md_recipients md)) ++ units_field k_age age_config (rc_age (md_recipients md))
  ++ [field k_modified (FStr (time_text (md_modified md))); field k_mac (FStr (mac (md_mac md)))]
  ++ match md_partial md with Some p => [rule_field p] | None => [] end
  ++ opt_field k_only (md_only md) FBool.
(** file/core.rs:8-19: the entries of the map, then [sops]. *)
Definition efile_entries (ef : efile) : fmap := fl_map ef ++ [field k_sops (FMap (meta_entries evalue_text (fl_meta ef)))].

Section Text.
  Context (re_valid : bytes -> bool) (ag : age_crate) (cd : codec).

  (** [.expect(..)]: file/core.rs:70-77, format/map.rs:76-85. *)
  Definition written (f : fmt) (es : fmap) : outcome bytes := match cd_write cd f es with Ok s => Ok s | _ => Panic end.
  Definition file_text (f : fmt) (ef : efile) : outcome bytes := written f (efile_entries ef).
  Definition map_text (f : fmt) (m : fmap) : outcome bytes := written f m.

  (** * Reading *)

  (** Inserting the entries of a map one by one.  serde_yaml refuses a repeated key; serde_json keeps the first position and the
      last value; toml's parser refuses (so this case is never reached). *)
  Fixpoint insert_entry (k v : fvalue) (m : fmap) : fmap :=
    match m with
    | [] => [(k, v)]
    | (k', v') :: m' => if fvalue_eqb Json k' k then (k', v) :: m' else (k', v') :: insert_entry k v m'
    end.
  Definition settle_entries (f : fmt) (l : fmap) : outcome fmap :=
    fold_left (fun acc kv => let* m := acc in
      match f with
      | Json => Ok (insert_entry (fst kv) (snd kv) m)
      | _ => if existsb (fun kv' => fvalue_eqb f (fst kv') (fst kv)) m then Err EDuplicateField else Ok (m ++ [kv])
      end) l (Ok []).
  (** [Deserialize] of the value enums. *)
  Fixpoint settle (f : fmt) (v : fvalue) : outcome fvalue :=
    match v with
    | FMap m =>
        let* l := mapM (fun kv => let* k := settle f (fst kv) in let* x := settle f (snd kv) in Ok (k, x)) m in
        let* m' := settle_entries f l in Ok (FMap m')
    | FSeq l => let* l' := mapM (settle f) l in Ok (FSeq l')
    | FTagged t x => let* x' := settle f x in Ok (FTagged t x')
    | _ => Ok v
    end.
  Definition settle_map (f : fmt) (l : fmap) : outcome fmap :=
    let* v := settle f (FMap l) in match v with FMap m => Ok m | _ => Err EInvalidField end.

  (** format/map.rs:62-74 [FromStr for RopsFileFormatMap]: a plaintext document is the whole text ([serde(transparent)]). *)
  Definition read_map (f : fmt) (s : bytes) : outcome fmap := let* es := cd_read cd f s in settle_map f es.

  Definition key_is (k : bytes) (kv : fvalue * fvalue) : bool := match fst kv with FStr s => bytes_eqb s k | _ => false end.
  (** A named field: at most one entry. *)
  Definition get_field (k : bytes) (es : fmap) : outcome (option fvalue) :=
    match filter (key_is k) es with [] => Ok None | [kv] => Ok (Some (snd kv)) | _ => Err EDuplicateField end.
  Definition need {A} (o : option A) : outcome A := ok_or EMissingField o.
  Definition as_string (v : fvalue) : outcome bytes := match v with FStr s => Ok s | _ => Err EInvalidField end.
  Definition as_map (v : fvalue) : outcome fmap := match v with FMap m => Ok m | _ => Err EInvalidField end.
  Definition as_time (v : fvalue) : outcome timestamp := let* s := as_string v in ok_or EInvalidField (cd_time cd s).

  (** unit.rs:5-14. *)
  Definition read_unit {K} (config : fmap -> outcome K) (v : fvalue) : outcome (wrapped K) :=
    let* es := as_map v in
    let* k := config es in
    let* c := get_field k_created es in
    let* c' := match c with None | Some FNull => Ok None | Some x => omap Some (as_time x) end in
    let* e := get_field k_enc es in
    let* e' := need e in
    let* enc := as_string e' in
    Ok {| u_key := k; u_created := c'; u_enc := enc |}.
  Definition read_age_config (es : fmap) : outcome bytes :=
    let* r := get_field k_recipient es in
    let* r' := need r in
    let* s := as_string r' in
    ok_or EInvalidField (ag_recipient ag s).
  Definition read_kms_config (es : fmap) : outcome aws_key :=
    let* p := get_field k_profile es in
    let* p' := need p in
    let* profile := as_string p' in
    let* a := get_field k_arn es in
    let* a' := need a in
    let* s := as_string a' in
    let* arn := map_err EInvalidField (parse_arn s) in
    Ok {| ak_profile := profile; ak_arn := arn |}.
  (** units.rs:36-53: later entries of the same key replace earlier ones. *)
  Definition read_units {K} (k : bytes) (eqb : K -> K -> bool) (config : fmap -> outcome K) (es : fmap) : outcome (list (wrapped K)) :=
    let* o := get_field k es in
    match o with
    | None => Ok []
    | Some (FSeq l) => let* us := mapM (read_unit config) l in Ok (fold_left (fun acc u => unit_insert eqb u acc) us [])
    | Some _ => Err EInvalidField
    end.

  (** [RopsRegex] is checked when read ([serde_regex]); the suffix is any string. *)
  Definition read_rule_entry (kv : fvalue * fvalue) : option partial :=
    match snd kv with
    | FStr s =>
        if key_is k_esuffix kv then Some (EncryptedSuffix s)
        else if key_is k_eregex kv then (if re_valid s then Some (EncryptedRegex s) else None)
        else if key_is k_usuffix kv then Some (UnencryptedSuffix s)
        else if re_valid s then Some (UnencryptedRegex s) else None
    | _ => None
    end.
  Definition is_rule_entry (kv : fvalue * fvalue) : bool :=
    key_is k_esuffix kv || key_is k_eregex kv || key_is k_usuffix kv || key_is k_uregex kv.
  (** A flattened [Option] (metadata/core.rs:22-23): serde looks for the first entry named like a variant and turns every error into
      [None] ([FlatMapDeserializer::deserialize_option], [__private_visit_untagged_option]). *)
  Definition read_rule (es : fmap) : option partial :=
    match find is_rule_entry es with Some kv => read_rule_entry kv | None => None end.

  (** metadata/core.rs:8-25.  Unknown fields are ignored. *)
  Definition read_meta {M} (mac : bytes -> outcome M) (v : fvalue) : outcome (meta M) :=
    let* es := as_map v in
    let* t := get_field k_modified es in
    let* t' := need t in
    let* lm := as_time t' in
    let* m := get_field k_mac es in
    let* m' := need m in
    let* ms := as_string m' in
    let* mc := map_err EInvalidField (mac ms) in
    let* o := get_field k_only es in
    let* only := match o with None | Some FNull => Ok None | Some (FBool b) => Ok (Some b) | Some _ => Err EInvalidField end in
    let* kms := read_units k_kms aws_key_eqb read_kms_config es in
    let* age := read_units k_age bytes_eqb read_age_config es in
    Ok {| md_recipients := {| rc_kms := kms; rc_age := age |}; md_modified := lm; md_mac := mc; md_partial := read_rule es; md_only := only |}.

  (** What serde can hold between reading the entries and building the flattened map ([Content]): no YAML tags; and keys that name a
      field must be scalars. *)
  Fixpoint buffered (v : fvalue) : bool :=
    match v with
    | FMap m => forallb (fun kv => buffered (fst kv) && buffered (snd kv)) m
    | FSeq l => forallb buffered l
    | FTagged _ _ => false
    | _ => true
    end.
  Definition scalar_key (k : fvalue) : bool := match k with FMap _ | FSeq _ | FTagged _ _ => false | _ => true end.

  (** file/core.rs:8-19, 60-68 [FromStr for RopsFile] (encrypted file). *)
  Definition efile_of_entries (f : fmt) (es : fmap) : outcome efile :=
    if forallb (fun kv => scalar_key (fst kv) && (key_is k_sops kv || buffered (snd kv))) es then
      let* o := get_field k_sops es in
      let* v := need o in
      let* md := read_meta parse_evalue v in
      let* m := settle_map f (filter (fun kv => negb (key_is k_sops kv)) es) in
      Ok {| fl_map := m; fl_meta := md |}
    else Err EInvalidField.
  Definition read_efile (f : fmt) (s : bytes) : outcome efile := let* es := cd_read cd f s in efile_of_entries f es.
End Text.
