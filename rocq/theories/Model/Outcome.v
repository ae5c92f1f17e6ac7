(** Results of Rust functions: [Result] with an explicit panic outcome. *)

(** Error kinds.  One constructor per error *kind* a caller can distinguish; payloads that only feed
    messages are dropped except where a property speaks about them.
    Models: crates/lib/src/file/map/value/encrypted.rs:16-34 (DecryptRopsValueError,
    EncryptedRopsValueFromStrError), value/core.rs:87-97 (RopsValueFromBytesError),
    file/error.rs (file errors), file/format/map.rs:19-60 (format conversion errors),
    integration/error.rs (integration errors), cli/src/error.rs (CLI errors). *)
Inductive error : Type :=
(* text of encrypted values *)
| EMissing            (* EncryptedRopsValueFromStrError::Missing *)
| EInvalidCipher      (* EncryptedRopsValueFromStrError::InvalidCipher *)
| EVariant            (* EncryptedRopsValueFromStrError::ValueVariantFromStr *)
| EBase64             (* Base64DecodeError *)
(* values *)
| ECipher             (* C::Error, DecryptRopsValueError::Cipher *)
| EUtf8               (* RopsValueFromBytesError::String *)
| EBoolean            (* RopsValueFromBytesError::Boolean *)
| EInteger            (* RopsValueFromBytesError::Integer *)
| EFloat              (* RopsValueFromBytesError::Float *)
(* hex MAC *)
| EHex                (* FromHexError *)
(* format conversions *)
| ENonStringKey
| EIntegerOutOfRange
| EEncryptedValue     (* RopsMapEncryptedLeaf parse error wrapped by the format layer *)
| EPlaintextWhenEncrypted
(* metadata and files *)
| EIntegration        (* IntegrationError *)
| EMissingDataKey
| EMissingKeys
| EDataKeySize
| EMacMismatch
| ESerialization      (* text layer *)
| EDuplicateField     (* serde: duplicate field *)
| EMissingField       (* serde: missing field *)
| EInvalidField       (* serde: invalid field content *)
(* cli *)
| EMultipleInputs
| EMissingInput
| EUnknownFormat
| ENoExtension
| EFoundNeither
| EMissingRule
| EConfig
| EIo.

Inductive outcome (A : Type) : Type :=
| Ok (a : A)
| Err (e : error)
| Panic.
Arguments Ok {A} a.
Arguments Err {A} e.
Arguments Panic {A}.

(** The [?] operator: crates/lib/src, used throughout. *)
Definition bind {A B} (o : outcome A) (f : A -> outcome B) : outcome B :=
  match o with Ok a => f a | Err e => Err e | Panic => Panic end.

(** [Result::map]. *)
Definition omap {A B} (f : A -> B) (o : outcome A) : outcome B :=
  match o with Ok a => Ok (f a) | Err e => Err e | Panic => Panic end.

(** [Result::map_err] with a constant target kind. *)
Definition map_err {A} (e' : error) (o : outcome A) : outcome A :=
  match o with Ok a => Ok a | Err _ => Err e' | Panic => Panic end.

(** [Option::ok_or]. *)
Definition ok_or {A} (e : error) (o : option A) : outcome A :=
  match o with Some a => Ok a | None => Err e end.

Declare Scope outcome_scope.
Delimit Scope outcome_scope with outcome.
Notation "'let*' x ':=' e 'in' k" := (bind e (fun x => k))
  (at level 61, x binder, e at next level, right associativity) : outcome_scope.
Notation "'let*' ' p ':=' e 'in' k" := (bind e (fun p => k))
  (at level 61, p strict pattern, e at next level, right associativity) : outcome_scope.
Open Scope outcome_scope.

Definition is_ok {A} (o : outcome A) : bool := match o with Ok _ => true | _ => false end.
