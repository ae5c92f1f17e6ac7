(** Key paths and partial encryption.
    Models crates/lib/src/file/map/key_path.rs and crates/lib/src/file/metadata/partial_encryption.rs. *)
From Verif.Model Require Export Bytes.

(** The [regex] crate is outside the model: validity of a pattern and [Regex::is_match] are parameters. *)
Record regex_engine : Type := {
  re_valid : bytes -> bool;
  re_match : bytes -> bytes -> bool;   (* pattern, haystack *)
}.

(** key_path.rs:6-8 [KeyPath::join]; [KeyPath::default()] is the empty string. *)
Definition path_join (path key : bytes) : bytes := path ++ key ++ [":"%byte].

(** key_path.rs:10-12 [KeyPath::last]. *)
Definition path_last (path : bytes) : bytes :=
  match strip_suffix1 ":" path with
  | Some s => last_piece ":" s
  | None => []
  end.

(** partial_encryption.rs:4-14 [PartialEncryptionConfig]; a regex is its pattern text. *)
Inductive partial : Type :=
| EncryptedSuffix (s : bytes)
| EncryptedRegex (p : bytes)
| UnencryptedSuffix (s : bytes)
| UnencryptedRegex (p : bytes).

(** partial_encryption.rs:35-39 [ResolvedPartialEncryption]; [Yes esc] carries [EscapeEncryption(esc)]. *)
Inductive resolved : Type :=
| Yes (esc : bool)
| No (c : partial).

Section Resolve.
  Context (re : regex_engine).

  (** partial_encryption.rs:20-32 [resolve]. *)
  Definition resolve (c : partial) (key : bytes) : resolved :=
    let hit :=
      match c with
      | EncryptedSuffix s => if ends_with s key then Some false else None
      | EncryptedRegex p => if re_match re p key then Some false else None
      | UnencryptedSuffix s => if ends_with s key then Some true else None
      | UnencryptedRegex p => if re_match re p key then Some true else None
      end in
    match hit with Some esc => Yes esc | None => No c end.

  (** The guard repeated in map/encrypt.rs:49-51, mac/decrypted.rs:66-69 and format/adapters.rs:84-86. *)
  Definition step (r : resolved) (key : bytes) : resolved :=
    match r with Yes e => Yes e | No c => resolve c key end.
End Resolve.

(** partial_encryption.rs:41-50 [escape_encryption]. *)
Definition escapes (r : resolved) : bool :=
  match r with
  | Yes e => e
  | No (EncryptedSuffix _) | No (EncryptedRegex _) => true
  | No (UnencryptedSuffix _) | No (UnencryptedRegex _) => false
  end.

(** partial_encryption.rs:53-60 [From<Option<&PartialEncryptionConfig>>]. *)
Definition initial (c : option partial) : resolved :=
  match c with Some c => No c | None => Yes false end.
