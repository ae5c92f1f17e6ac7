(** Integrations: where private keys come from, wrapping and unwrapping the data key, and the recipient entries of a file.
    Sources: crates/lib/src/integration/{core,age}.rs, integration/aws_kms/core.rs, file/metadata/integration/{core,unit,units}.rs,
    the key-removing part of file/metadata/core.rs. *)
From Verif.Model Require Export MapCrypt Aws Timestamp.
Open Scope byte_scope.

(** * The outside world *)

(** [std::env::var]. *)
Inductive env_var := VarUnset | VarText (s : bytes) | VarNotUnicode.
(** [Path::exists] and [read_to_string]: absent, readable text, or present but unreadable. *)
Inductive key_file := FileAbsent | FileText (s : bytes) | FileUnreadable.
(** What rops sends to AWS KMS besides the bytes: region, credentials and key id (aws_kms/core.rs:36-38, 59-62, 93-102). *)
Record kms_request := { kr_region : bytes; kr_id : bytes; kr_secret : bytes; kr_key : bytes }.
(** The answer of the service: failure, success without the expected field, or the bytes. *)
Inductive kms_reply := KmsFailed | KmsEmpty | KmsBlob (b : bytes).

(** The environment of one library call.  [e_clock] and [e_kms_encrypt] take the position in the stream of effects, so repeated
    calls may answer differently. *)
Record env := {
  e_var : bytes -> env_var;
  e_config_dir : option bytes;                 (* [BaseDirs::config_local_dir], [None] without home directory *)
  e_file : bytes -> key_file;
  e_clock : nat -> timestamp;
  e_kms_encrypt : nat -> kms_request -> bytes -> kms_reply;
  e_kms_decrypt : kms_request -> bytes -> kms_reply }.

(** [now()] (timestamp.rs:10-14). *)
Definition now (E : env) (n : nat) : timestamp := whole_second (e_clock E n).

(** The age crate.  Recipients and identities are represented by their canonical text.  Opening gives the plaintext, an error, or
    reports a passphrase-encrypted file.  Wrapping writes to memory and does not fail. *)
Inductive age_opened := AgeFailed | AgePassphrase | AgePlain (b : bytes).
Record age_crate := {
  ag_recipient : bytes -> option bytes;        (* [FromStr for x25519::Recipient] *)
  ag_identity : bytes -> option bytes;         (* [FromStr for x25519::Identity] *)
  ag_public : bytes -> bytes;                  (* [Identity::to_public] *)
  ag_wrap : nat -> bytes -> bytes -> bytes;    (* entropy, recipient, data key: armored text *)
  ag_open : bytes -> bytes -> age_opened }.    (* identity, armored text *)

(** * Private keys *)

(** [str::trim] (ASCII white space only: a simplification, the function also trims other Unicode white space). *)
Definition is_space (b : byte) : bool := in_range x09 x0d b || beqb b " ".
Fixpoint trim_left (s : bytes) : bytes :=
  match s with b :: s' => if is_space b then trim_left s' else s | [] => [] end.
Definition trim (s : bytes) : bytes := rev (trim_left (rev (trim_left s))).

(** [str::lines]: the text after the last newline is a line unless empty; a carriage return before the newline is dropped. *)
Definition chomp (s : bytes) : bytes := match strip_suffix1 x0d s with Some s' => s' | None => s end.
Fixpoint drop_last_empty (l : list bytes) : list bytes :=
  match l with
  | [] => []
  | [x] => if bytes_eqb x [] then [] else [x]
  | x :: l' => x :: drop_last_empty l'
  end.
Definition lines (s : bytes) : list bytes := map chomp (drop_last_empty (split_on x0a s)).

(** core.rs:13-19 [private_key_env_var_name], [private_key_file_path_override_env_var_name]. *)
Definition env_var_name (name : bytes) : bytes := lit "ROPS_" ++ to_upper name.
Definition key_file_var_name (name : bytes) : bytes := lit "ROPS_" ++ to_upper name ++ lit "_KEY_FILE".

Section PrivateKeys.
  Context {P : Type} (E : env) (name : bytes) (parse : bytes -> outcome P).

  (** core.rs:21-29 [private_keys_from_env]. *)
  Definition private_keys_from_env : outcome (list P) :=
    match e_var E (env_var_name name) with
    | VarText s => mapM parse (split_on "," s)
    | VarUnset => Ok []
    | VarNotUnicode => Err EIntegration
    end.

  (** core.rs:32-39: the override variable, else the default path.  A path override that is not Unicode is not modelled
      ([var_os] accepts it); it is treated as unset. *)
  Definition key_file_path : outcome bytes :=
    match e_var E (key_file_var_name name) with
    | VarText p => Ok p
    | _ => match e_config_dir E with
           | Some d => Ok (d ++ lit "/rops/" ++ name ++ lit "_keys")
           | None => Err EIntegration
           end
    end.

  (** core.rs:31-50 [private_keys_from_default_key_file]. *)
  Definition private_keys_from_file : outcome (list P) :=
    let* p := key_file_path in
    match e_file E p with
    | FileAbsent => Ok []
    | FileUnreadable => Err EIntegration
    | FileText s => mapM parse (filter (fun l => negb (bytes_eqb l [])) (map trim (lines s)))
    end.

  (** core.rs:52-59 [retrieve_private_keys]. *)
  Definition retrieve_private_keys : outcome (list P) :=
    let* a := private_keys_from_env in
    let* b := private_keys_from_file in
    Ok (a ++ b).
End PrivateKeys.

(** * Wrapping the data key *)

Section Wrapping.
  Context (ag : age_crate) (E : env).

  (** age.rs:29-34 [parse_private_key], age.rs:18 [NAME]. *)
  Definition parse_age_identity (s : bytes) : outcome bytes := ok_or EIntegration (ag_identity ag s).
  Definition age_private_keys : outcome (list bytes) := retrieve_private_keys E (lit "age") parse_age_identity.

  (** age.rs:36-55 [encrypt_data_key]. *)
  Definition age_encrypt_key (r key : bytes) (n : nat) : outcome (bytes * nat) := Ok (ag_wrap ag n r key, S n).

  (** age.rs:57-78 [decrypt_data_key]; [read_exact] takes the first 32 bytes. *)
  Definition age_decrypt_key (r enc : bytes) : outcome (option bytes) :=
    let* ids := age_private_keys in
    match find (fun i => bytes_eqb (ag_public ag i) r) ids with
    | None => Ok None
    | Some i =>
        match ag_open ag i enc with
        | AgeFailed => Err EIntegration
        | AgePassphrase => Panic
        | AgePlain p => if Nat.leb key_size (List.length p) then Ok (Some (firstn key_size p)) else Err EIntegration
        end
    end.

  (** aws_kms/core.rs:12,23-25. *)
  Definition kms_private_keys : outcome (list aws_secret) := retrieve_private_keys E (lit "aws_kms") parse_aws_secret.

  (** aws_kms/core.rs:84-105 [find_client]. *)
  Definition find_client (k : aws_key) : outcome (option kms_request) :=
    let* ids := kms_private_keys in
    Ok (match find (fun p => bytes_eqb (as_profile p) (ak_profile k)) ids with
        | None => None
        | Some p => Some {| kr_region := arn_region (ak_arn k); kr_id := as_id p; kr_secret := as_secret p; kr_key := arn_key (ak_arn k) |}
        end).

  (** aws_kms/core.rs:30-47 [encrypt_data_key]. *)
  Definition kms_encrypt_key (k : aws_key) (key : bytes) (n : nat) : outcome (bytes * nat) :=
    let* c := find_client k in
    match c with
    | None => Err EIntegration
    | Some req =>
        match e_kms_encrypt E n req key with
        | KmsFailed => Err EIntegration
        | KmsEmpty => Panic
        | KmsBlob b => Ok (encode_base64 b, S n)
        end
    end.

  (** aws_kms/core.rs:49-73 [decrypt_data_key]; data_key.rs:42-54 [TryFrom<Vec<u8>>]. *)
  Definition kms_decrypt_key (k : aws_key) (enc : bytes) : outcome (option bytes) :=
    let* blob := map_err EIntegration (decode_base64_vec enc) in
    let* c := find_client k in
    match c with
    | None => Ok None
    | Some req =>
        match e_kms_decrypt E req blob with
        | KmsFailed => Err EIntegration
        | KmsEmpty => Panic
        | KmsBlob p => if Nat.eqb (List.length p) key_size then Ok (Some p) else Err EIntegration
        end
    end.
End Wrapping.

(** * Recipient entries *)

(** unit.rs:5-14 [IntegrationMetadataUnit]. *)
Record wrapped (K : Type) := { u_key : K; u_created : option timestamp; u_enc : bytes }.
Arguments u_key {K} w.
Arguments u_created {K} w.
Arguments u_enc {K} w.

(** units.rs:7 [IntegrationMetadataUnits]: an [IndexMap] whose keys are the key ids of its values, so a list of values.
    units.rs:15-21 [insert]: replaces in place, else appends. *)
Fixpoint unit_insert {K} (eqb : K -> K -> bool) (u : wrapped K) (l : list (wrapped K)) : list (wrapped K) :=
  match l with
  | [] => [u]
  | x :: l' => if eqb (u_key x) (u_key u) then u :: l' else x :: unit_insert eqb u l'
  end.

(** [IndexMap::shift_remove]. *)
Fixpoint unit_remove {K} (eqb : K -> K -> bool) (k : K) (l : list (wrapped K)) : option (wrapped K * list (wrapped K)) :=
  match l with
  | [] => None
  | x :: l' => if eqb (u_key x) k then Some (x, l') else
      match unit_remove eqb k l' with Some (u, r) => Some (u, x :: r) | None => None end
  end.

(** metadata/integration/core.rs:5-15 [IntegrationMetadata]. *)
Record recipients := { rc_kms : list (wrapped aws_key); rc_age : list (wrapped bytes) }.
Definition no_recipients : recipients := {| rc_kms := []; rc_age := [] |}.

(** core.rs:18-30 [add_keys] on the entries of one integration.  The entries inserted before a failure stay. *)
Fixpoint add_units {K} (eqb : K -> K -> bool) (mk : K -> nat -> outcome (wrapped K * nat)) (ids : list K) (us : list (wrapped K)) (n : nat)
  : list (wrapped K) * outcome nat :=
  match ids with
  | [] => (us, Ok n)
  | k :: ids' =>
      match mk k n with
      | Ok (u, n') => add_units eqb mk ids' (unit_insert eqb u us) n'
      | Err e => (us, Err e)
      | Panic => (us, Panic)
      end
  end.

(** metadata/core.rs:128-136 [update_data_key]: replaces the wrapped key of each entry in turn; stops at the first failure. *)
Fixpoint rewrap_units {K} (wrap : K -> nat -> outcome (bytes * nat)) (us : list (wrapped K)) (n : nat) : list (wrapped K) * outcome nat :=
  match us with
  | [] => ([], Ok n)
  | u :: us' =>
      match wrap (u_key u) n with
      | Ok (enc, n') =>
          let '(r, o) := rewrap_units wrap us' n' in
          ({| u_key := u_key u; u_created := u_created u; u_enc := enc |} :: r, o)
      | Err e => (us, Err e)
      | Panic => (us, Panic)
      end
  end.

(** [Iterator::find_map] with [transpose] (core.rs:37-39, 44-46): the first entry that gives a key, an error or an abort. *)
Fixpoint first_key {K} (open : K -> bytes -> outcome (option bytes)) (us : list (wrapped K)) : outcome (option bytes) :=
  match us with
  | [] => Ok None
  | u :: us' =>
      match open (u_key u) (u_enc u) with
      | Ok None => first_key open us'
      | r => r
      end
  end.

Section Recipients.
  Context (tp : tape) (ag : age_crate) (E : env).

  (** unit.rs:16-24 [IntegrationMetadataUnit::new]; only KMS entries carry a creation time (age.rs:104, aws_kms/config.rs:10). *)
  Definition new_age_unit (key r : bytes) (n : nat) : outcome (wrapped bytes * nat) :=
    let* e := age_encrypt_key ag r key n in
    Ok ({| u_key := r; u_created := None; u_enc := fst e |}, snd e).
  Definition new_kms_unit (key : bytes) (k : aws_key) (n : nat) : outcome (wrapped aws_key * nat) :=
    let* e := kms_encrypt_key E k key (S n) in
    Ok ({| u_key := k; u_created := Some (now E n); u_enc := fst e |}, snd e).

  (** core.rs:18-30 [add_keys::<AgeIntegration>], [add_keys::<AwsKmsIntegration>]. *)
  Definition add_age (ids : list bytes) (key : bytes) (rc : recipients) (n : nat) : recipients * outcome nat :=
    let '(us, o) := add_units bytes_eqb (new_age_unit key) ids (rc_age rc) n in
    ({| rc_kms := rc_kms rc; rc_age := us |}, o).
  Definition add_kms (ids : list aws_key) (key : bytes) (rc : recipients) (n : nat) : recipients * outcome nat :=
    let '(us, o) := add_units aws_key_eqb (new_kms_unit key) ids (rc_kms rc) n in
    ({| rc_kms := us; rc_age := rc_age rc |}, o).

  (** core.rs:32-51 [decrypt_data_key]. *)
  Definition decrypt_data_key (rc : recipients) : outcome (option bytes) :=
    let* a := first_key (age_decrypt_key ag E) (rc_age rc) in
    match a with
    | Some k => Ok (Some k)
    | None => first_key (kms_decrypt_key E) (rc_kms rc)
    end.

  (** metadata/core.rs:47-52 [retrieve_data_key]. *)
  Definition retrieve_data_key (rc : recipients) : outcome bytes :=
    let* o := decrypt_data_key rc in ok_or EMissingDataKey o.

  (** metadata/core.rs:118-124: draw a new data key and wrap it for the remaining entries. *)
  Definition rotate (rc : recipients) (n : nat) : recipients * outcome nat :=
    let key := draw_key tp n in
    let '(a, oa) := rewrap_units (fun r => age_encrypt_key ag r key) (rc_age rc) (S n) in
    match oa with
    | Ok n1 =>
        let '(k, ok) := rewrap_units (fun k => kms_encrypt_key E k key) (rc_kms rc) n1 in
        ({| rc_kms := k; rc_age := a |}, ok)
    | Err e => ({| rc_kms := rc_kms rc; rc_age := a |}, Err e)
    | Panic => ({| rc_kms := rc_kms rc; rc_age := a |}, Panic)
    end.

  (** metadata/core.rs:108-137 [remove_integration_key::<AgeIntegration>], [::<AwsKmsIntegration>]. *)
  Definition remove_age (r : bytes) (rc : recipients) (n : nat) : recipients * outcome (option (wrapped bytes) * nat) :=
    match unit_remove bytes_eqb r (rc_age rc) with
    | None => (rc, Ok (None, n))
    | Some (u, rest) =>
        let '(rc', o) := rotate {| rc_kms := rc_kms rc; rc_age := rest |} n in
        (rc', omap (fun n' => (Some u, n')) o)
    end.
  Definition remove_kms (k : aws_key) (rc : recipients) (n : nat) : recipients * outcome (option (wrapped aws_key) * nat) :=
    match unit_remove aws_key_eqb k (rc_kms rc) with
    | None => (rc, Ok (None, n))
    | Some (u, rest) =>
        let '(rc', o) := rotate {| rc_kms := rest; rc_age := rc_age rc |} n in
        (rc', omap (fun n' => (Some u, n')) o)
    end.

  (** builder/integration_metadata.rs:26-55 [into_integration_metadata]. *)
  Definition build_recipients (age_ids : list bytes) (kms_ids : list aws_key) (key : bytes) (n : nat) : outcome (recipients * nat) :=
    match age_ids, kms_ids with
    | [], [] => Err EMissingKeys
    | _, _ =>
        let '(rc1, o1) := add_age age_ids key no_recipients n in
        let* n1 := o1 in
        let '(rc2, o2) := add_kms kms_ids key rc1 n1 in
        let* n2 := o2 in
        Ok (rc2, n2)
    end.
End Recipients.
