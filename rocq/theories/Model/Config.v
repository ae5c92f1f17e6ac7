(** The configuration file: creation rules, reading and lookup.
    Sources: crates/cli/src/config/{core,creation_rule,retrieve}.rs, crates/cli/src/integration_keys.rs and the code serde derives. *)
From Verif.Model Require Export Os.
Open Scope byte_scope.

(** integration_keys.rs:14-30 [IntegrationKeys]. *)
Record keys := { ks_age : list bytes; ks_kms : list aws_key }.
(** creation_rule.rs:7-19 [CreationRule]; a regex is its pattern. *)
Record rule := { cr_path : bytes; cr_only : option bool; cr_partial : option partial; cr_keys : keys }.

(** integration_keys.rs:33-36 [merge]. *)
Definition merge_keys (a b : keys) : keys := {| ks_age := ks_age a ++ ks_age b; ks_kms := ks_kms a ++ ks_kms b |}.

(** integration_keys.rs:42-46 [identical_keys]: no element in the symmetric difference. *)
Definition identical_keys {K} (eqb : K -> K -> bool) (a b : list K) : bool :=
  forallb (fun x => existsb (eqb x) b) a && forallb (fun x => existsb (eqb x) a) b.
(** integration_keys.rs:38-47 [implies_integration_metadata]. *)
Definition implies_recipients (ks : keys) (rc : recipients) : bool :=
  identical_keys bytes_eqb (ks_age ks) (map u_key (rc_age rc)) && identical_keys aws_key_eqb (ks_kms ks) (map u_key (rc_kms rc)).
(** [PartialEq] of [PartialEncryptionConfig] (partial_encryption.rs:4-13); a regex is compared by its pattern. *)
Definition partial_eqb (a b : partial) : bool :=
  match a, b with
  | EncryptedSuffix s, EncryptedSuffix t | EncryptedRegex s, EncryptedRegex t
  | UnencryptedSuffix s, UnencryptedSuffix t | UnencryptedRegex s, UnencryptedRegex t => bytes_eqb s t
  | _, _ => false
  end.
Definition option_eqb {A} (eqb : A -> A -> bool) (a b : option A) : bool :=
  match a, b with Some x, Some y => eqb x y | None, None => true | _, _ => false end.
(** creation_rule.rs:22-26 [implies_metadata]. *)
Definition implies_metadata {M} (r : rule) (md : meta M) : bool :=
  option_eqb Bool.eqb (cr_only r) (md_only md) && option_eqb partial_eqb (cr_partial r) (md_partial md)
  && implies_recipients (cr_keys r) (md_recipients md).

Section Reading.
  Context (re : regex_engine) (ag : age_crate) (cd : codec).

  (** [Vec<DisplayFromStr>] with [serde(default)] (integration_keys.rs:19-29). *)
  Definition read_strings {K} (parse : bytes -> outcome K) (o : option fvalue) : outcome (list K) :=
    match o with
    | None => Ok []
    | Some (FSeq l) => mapM (fun v => let* s := as_string v in parse s) l
    | Some _ => Err EConfig
    end.
  (** integration_keys.rs:14-30.  serde derive also takes the fields as an array, in order; a field that is missing has its default,
      and toml does not ask for the rest of the array. *)
  Definition read_keys (o : option fvalue) : outcome keys :=
    match o with
    | None => Ok {| ks_age := []; ks_kms := [] |}
    | Some (FSeq l) =>
        let* age := read_strings (fun s => ok_or EConfig (ag_recipient ag s)) (nth_error l 0) in
        let* kms := read_strings parse_aws_key (nth_error l 1) in
        Ok {| ks_age := age; ks_kms := kms |}
    | Some v =>
        let* es := as_map v in
        let* a := get_field (lit "age") es in
        let* age := read_strings (fun s => ok_or EConfig (ag_recipient ag s)) a in
        let* k := get_field (lit "aws_kms") es in
        let* kms := read_strings parse_aws_key k in
        Ok {| ks_age := age; ks_kms := kms |}
    end.
  (** An externally tagged enum: a table with exactly one entry (partial_encryption.rs:4-13). *)
  Definition read_partial (o : option fvalue) : outcome (option partial) :=
    match o with
    | None => Ok None
    | Some (FMap [kv]) =>
        if is_rule_entry kv then let* p := ok_or EConfig (read_rule_entry (re_valid re) kv) in Ok (Some p) else Err EConfig
    | Some _ => Err EConfig
    end.
  (** creation_rule.rs:12-13, [Option<bool>]. *)
  Definition read_only (o : option fvalue) : outcome (option bool) :=
    match o with None => Ok None | Some (FBool b) => Ok (Some b) | Some _ => Err EConfig end.
  (** creation_rule.rs:7-19, as a table. *)
  Definition read_rule_table (v : fvalue) : outcome rule :=
    let* es := as_map v in
    let* p := get_field (lit "path_regex") es in
    let* p' := need p in
    let* path := as_string p' in
    if re_valid re path then
      let* m := get_field (lit "mac_only_encrypted") es in
      let* only := read_only m in
      let* pe := get_field (lit "partial_encryption") es in
      let* part := read_partial pe in
      let* ik := get_field (lit "integration_keys") es in
      let* ks := read_keys ik in
      Ok {| cr_path := path; cr_only := only; cr_partial := part; cr_keys := ks |}
    else Err EConfig.
  (** creation_rule.rs:7-19, as an array of the fields in order (serde derive, [visit_seq]): only the last field may be missing,
      because only it has a default; what follows is not looked at. *)
  Definition read_rule_array (l : list fvalue) : outcome rule :=
    match l with
    | p :: m :: pe :: rest =>
        let* path := as_string p in
        if re_valid re path then
          let* only := read_only (Some m) in
          let* part := read_partial (Some pe) in
          let* ks := read_keys (hd_error rest) in
          Ok {| cr_path := path; cr_only := only; cr_partial := part; cr_keys := ks |}
        else Err EConfig
    | _ => Err EConfig
    end.
  Definition read_creation_rule (v : fvalue) : outcome rule :=
    match v with FSeq l => read_rule_array l | _ => read_rule_table v end.
  (** core.rs:7-11 [Config]. *)
  Definition read_config (s : bytes) : outcome (list rule) :=
    let* es := cd_read cd Toml s in
    let* r := get_field (lit "creation_rules") es in
    let* v := need r in
    match v with FSeq l => mapM read_creation_rule l | _ => Err EConfig end.

  Context (O : os).

  (** retrieve.rs:37-40 [read_fs_path_and_deserialize]. *)
  Definition read_config_file (p : bytes) : prog (list rule) := do* s := read_to_string O p in lift (read_config s).
  (** The path of a directory; [std::path::PathBuf::push], [pop]. *)
  Definition dir_text (dirs : list bytes) : bytes := flat_map (fun d => "/" :: d) (rev dirs).
  Definition config_in (dirs : list bytes) : bytes := dir_text dirs ++ lit "/.rops.toml".
  (** retrieve.rs:22-35 [traverse_fs_or_default]. *)
  Fixpoint traverse (dirs : list bytes) : prog (list rule) :=
    do* e := exists_path (config_in dirs) in
    if e then read_config_file (config_in dirs)
    else match dirs with [] => ret [] | _ :: up => traverse up end.
  (** retrieve.rs:11-20 [retrieve_impl]. *)
  Definition retrieve (arg : option bytes) : prog (list rule) :=
    match arg with
    | Some p => read_config_file p
    | None =>
        match os_config_var O with
        | Some p => read_config_file p
        | None => match os_cwd O with None => lift (Err EIo) | Some dirs => traverse dirs end
        end
    end.
End Reading.
