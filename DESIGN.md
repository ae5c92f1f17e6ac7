# Formal model of rops: design

## 1. Trusted base

* **The Coq 8.16.1 kernel**, including the virtual machine behind `vm_compute`, which is used for concrete examples, for the
  witnesses of counterexamples and for known-answer tests. `coqchk` checks the same terms without the virtual machine.
* **Axioms: none.** Every theorem in `Props/` is followed by `Print Assumptions`, and each one prints
  "Closed under the global context". No axiom of the standard library is used either
  (the names `Coq.ssr.ssrunder.*` that a checker may list are opaque modules loaded with the standard library's tactics; no theorem depends on them). No kernel check is switched off.
* **Assumptions about the surroundings are hypotheses of the theorems**, never axioms. They are ordinary predicates on function
  arguments, and `Props/ExWorld.v` and `Props/ExCodec.v` build concrete instances that satisfy all of them:

  | Hypothesis | Meaning |
  |---|---|
  | `age_law ag` | what age wraps for a recipient, the identity of that recipient unwraps to the same 32 bytes |
  | `kms_law W` | `W` is the set of environments considered: what AWS KMS encrypted in one, it decrypts in another to the same bytes, or the request fails |
  | `codec_law cd g f` | for format `f`: reading the text that was written for a document gives the document in the layout of the format, with JSON floats changed by `g`; for documents nested at most 100 deep |
  | `time_law cd` | a time stamp that was written is read back |
  | `text_law cd f` | what is written is UTF-8 |
  | `parser_law cd`, `printer_law cd` (C60 only) | parsers report errors instead of aborting and deliver values of their types; printers print every value of these types |
  | `plain_world ag W` | clocks show existing times, age writes UTF-8 |

* **The reading of the source.** The code was not run. Each definition cites file and lines under /repo.
* **Knowledge of dependencies** whose sources are not available offline, recorded where it is used:
  `base64` 0.22 (NO_PAD engine: no trailing bits; `decode_slice_unchecked` panics when the output is too small),
  `aes-gcm` 0.10 (length limits), `sha2`, `hex`, `std` (`FromStr`/`Display` for i64 and f64, `Path`, `String::from_utf8_lossy`),
  `indexmap` (insertion order, replace in place, equality without order), `serde` derive (flatten, duplicate fields, untagged and
  flattened enums), `serde_json` 1.0.128 without `float_roundtrip` (pretty printer, number and string reader, recursion limit), `ryu` (shortest digits and notation), `toml` (plain values before tables), `aws-arn` 0.3.1 identifier syntax,
  `clap` 4.5 (`SetTrue`, `Set` and `Append`, groups, `requires`, how arguments are split, value parsers of paths, strings and value enums, required subcommands), `chrono` 0.4.38 (RFC 3339 printing, relaxed reading).

## 2. What is modelled

Strings and byte vectors are `list byte` (`Coq.Init.Byte`), so a Rust `String` is a byte list satisfying a concrete UTF-8
predicate. Panics are an explicit outcome: `outcome A := Ok a | Err e | Panic`. Random draws are read from an arbitrary tape indexed by
a draw counter threaded through the code. The environment (variables, key files, clocks, KMS) is a record of functions. A run of
a command is a function on a state with files, standard output, a log of file operations and the draw counter; every operation of the operating system
may fail, as decided by a function of the log.

| Area | Source | Model file |
|---|---|---|
| outcomes and error kinds | error.rs files | Model/Outcome.v |
| byte and str primitives, UTF-8 | std | Model/Bytes.v, Model/Utf8.v |
| base64, hex | base64utils.rs, metadata/mac/decrypted.rs | Model/Base64.v, Model/Hex.v |
| i64 and f64 text, time stamps | std, file/timestamp.rs | Model/IntText.v, Model/Float64.v, Model/Timestamp.v |
| SHA-512, AES-256-GCM (concrete, executable) | cryptography/ | Model/Sha512.v, Model/Aes.v, Model/Gcm.v |
| typed values, encrypted values and their text | file/map/value | Model/Value.v |
| key path, partial encryption | key_path.rs, partial_encryption.rs | Model/Partial.v |
| maps, encryption, decryption, saved nonces | file/map | Model/Tree.v, Model/MapCrypt.v |
| MAC | metadata/mac | Model/Mac.v |
| the three formats, as value trees | file/format | Model/Format.v |
| age and AWS KMS, private keys, recipients | integration/, metadata/integration | Model/Integration.v, Model/Aws.v |
| files, builder, saved parameters | file/core.rs, file/builder, saved_parameters.rs | Model/File.v |
| files as text (the map next to `sops`), serde derive | file/core.rs, file/metadata | Model/Document.v |
| JSON text, time stamps in files | serde_json, ryu, chrono (outside /repo) | Model/Json.v, Model/Chrono.v |
| file system, standard streams, editor, failures, crashes | std calls of crates/cli | Model/Os.v |
| configuration and its lookup | crates/cli/src/config | Model/Config.v |
| commands and arguments | crates/cli/src/{args,cli} | Model/Cli.v |
| the words of EDITOR | shlex (outside /repo) | Model/Shlex.v |
| from the arguments of the process to a command | crates/cli/src/args, integration_keys.rs | Model/Args.v |
| from the arguments to the exit status | crates/cli/src/main.rs, run.rs | Model/Main.v |
| commands as sequences of steps, several at once | as Model/Cli.v, Model/Os.v and Model/Config.v | Model/Script.v |

Not modelled:

* the text grammars of YAML and TOML: a parameter `codec` with the laws above. JSON and time stamps are concrete (Model/Json.v,
  Model/Chrono.v); the theorems about a `codec` hold in particular for `json_codec`, which satisfies `codec_law` and `text_law` for JSON (C64 to C67), so
  that C55_json_partial, C61_json_partial, C62_json_partial and C63_json_* assume nothing about the text of the file;
* the regex engine: an arbitrary pair of functions (which patterns are valid, which texts match);
* the cryptography inside age and AWS KMS: arbitrary functions with the laws above;
* clap's messages, `rops help` and which of several faults of a line is reported;
* the editor process: for each program and arguments, arbitrary functions from file content to file content and exit, one for each attempt;
* programs other than rops writing the same files while a command runs (several rops commands at once are in Model/Script.v, where looking at a file,
  emptying it and writing a text are one step each); links and directories, except that a path may be unreadable;
* timing, memory zeroing, shell completions, the `test-utils` features and the stub cipher of the tests.

Cryptographic strength is not a property of a functional model. It is avoided rather than assumed: theorems about tampering
conclude "rejected, or this explicit tag collision, or this explicit SHA-512 collision on these exact strings".
AES-GCM and SHA-512 are implemented concretely, so their laws (decryption inverts encryption; decryption succeeds only on
the tag that encryption would have produced) are proved, and the repository's own mock values are checked as known-answer tests
(`Tests/KatMap.v`).

## 3. Layout of the development

* `Model/*.v`: definitions only, computable.
* `Spec/*.v`: the vocabulary of the statements: relations and predicates that do not use the traversals of the model.
* `Proofs/*.v`: lemmas.
* `Props/*.v`: the theorems, `Print Assumptions` below each one, and examples that meet their hypotheses.
  `ExWorld.v` and `ExCodec.v` define the concrete world of the examples.
* `Tests/*.v`: known-answer tests (tests, not proofs).
* `../seeded/LOG.jsonl`: wrong programs tried against the theorems.

Naming: `Cnn_..._partial` proves a part of property Cnn, and its comment says what is missing; `Cnn_..._refuted` proves that the full
statement is false of the code; `Cnn_witness` shows a concrete case that meets the hypotheses.

## 4. Properties

The statements are in `properties.jsonl`.

| Id | Property | Status | How, and what is missing | Theorems |
|---|---|---|---|---|
| C01 | Typed values survive the byte form that is encrypted | proved | Round trips of decimal and float text by induction; UTF-8 validity is the type invariant of Rust strings.  | `C01_byte_form_round_trip`, `C01_reading_respects_type`, `C01_byte_form_injective` |
| C02 | Encrypted values survive being written to and read from text | proved | The base64 alphabet avoids `,` and `]`; base64 round trip by induction on groups of three bytes.  | `C02_text_round_trip` |
| C03 | Parsing encrypted-value text never aborts the program | partial | Inversion of the parser; the aborting texts are characterised exactly. **False of the code: an iv or tag that is too long aborts in decode_slice; the partial theorem gives exactly when it does not.** | `C03_parse_never_aborts_refuted`, `C03_parse_never_aborts_partial` |
| C04 | Encrypted-value text is accepted only in its documented shape | proved | Inversion of the parser into the shape of the text; what is accepted is displayed again as a text that parses to the same value.  | `C04_accepted_shape`, `C04_redisplay` |
| C05 | A value encrypted at a key path decrypts at that key path | proved | Laws of the concrete AES-256-GCM: counter mode is an involution, the tag is recomputed.  | `C05_encrypt_decrypt` |
| C06 | Ciphertexts are bound to their key path, nonce, tag and data key | proved | Decryption returns only if the stored tag is the recomputed one; the conclusion is equality or an explicit tag collision.  | `C06_binding`, `C06_tag_only` |
| C07 | Which values get encrypted follows the documented partial-encryption rule | partial | The documented rule over the list of enclosing keys against the resolver over the joined path, by induction on the tree. **False of the code for keys containing a colon; proved for colon-free keys or suffixes, and exactly characterised for all keys.** | `C07_rule_refuted`, `C07_rule_partial`, `C07_rule_exact` |
| C08 | Encryption, decryption and MAC agree on which values are encrypted | partial | The three traversals (encrypt, decrypt, MAC) agree for colon-free paths. **False of the code for keys containing a colon (C07); proved otherwise.** | `C08_agreement_refuted`, `C08_agreement_partial` |
| C09 | Encryption keeps structure and hides exactly the in-scope values | proved | A structural relation between document and encrypted document, by induction on the tree.  | `C09_structure` |
| C10 | Decrypting an encrypted map returns the original map | proved | Induction on the tree with threaded randomness.  | `C10_round_trip`, `C10_decrypt_total` |
| C11 | A file built and encrypted by rops decrypts to what was put in | partial | C10, the MAC, the format adapters, the data key law, and the text layer composed. **False of the code for keys/suffixes with a colon; proved for all other documents at the level of the parsed file, and through text for documents outside the counterexamples of C45, C47, C53 and C58 and nested at most 100 deep.** | `C11_document_round_trip`, `C11_file_refuted`, `C11_file_partial`, `C11_text_partial`, `C67_json_file_partial` |
| C12 | Decryption succeeds only when the stored MAC equals the MAC of the decrypted content | partial | Inversion of file decryption; the list of all ways to abort. **The safety part is proved in full. 'An error in every other case' is false: some files abort; the partial theorem lists all causes.** | `C12_sound`, `C12_sound_saving`, `C12_mismatch`, `C12_no_abort_refuted`, `C12_no_abort_nonce_refuted`, `C12_aborts_partial` |
| C13 | Changing, adding, removing or reordering values is detected | proved | Injectivity of hex and the explicit SHA-512 collision as the only alternative.  | `C13_tampering`, `C13_same_mac` |
| C14 | The MAC protects the document's structure (keys, types, nulls, value boundaries) | partial | Four computed counterexamples; the partial theorem says that the concatenated value texts are equal. **False of the code in four ways; the partial theorem says what is protected.** | `C14_type_refuted`, `C14_null_refuted`, `C14_boundary_refuted`, `C14_path_refuted`, `C14_values_partial` |
| C15 | mac_only_encrypted restricts the MAC to encrypted values and is itself tamper evident | proved | The MAC input is the concatenation of exactly the covered values.  | `C15_covered_values`, `C15_uncovered_irrelevant`, `C15_option_is_evident` |
| C16 | The last-modified time is authenticated | proved | Tag equation and injectivity of the RFC 3339 text to the second.  | `C16_seconds`, `C16_time_authenticated` |
| C17 | Fresh encryption never reuses a random draw | proved | The draws used are strictly increasing intervals of a counter.  | `C17_fresh_draws`, `C17_built`, `C17_encrypted` |
| C18 | Editing reuses a value nonce only for an identical message | proved | Invariant of the saved-nonce table, lifted to histories of edits.  | `C18_saved_nonce_use`, `C18_no_reuse_in_histories` |
| C19 | No (data key, nonce) pair is ever used for two different messages across an edit | partial | Histories of AES-GCM invocations; refuted for the MAC, proved for values. **False of the code for the MAC; proved for values, and the plaintext is the same for the MAC.** | `C19_reuse_refuted`, `C19_messages_partial` |
| C20 | Re-encrypting an unedited file reproduces it byte for byte | partial | Saved nonces are found again under path and value; refuted for duplicates. **False of the code for equal values in one sequence; proved for files when equal values at one path have one nonce.** | `C20_unedited_refuted`, `C20_unedited_map_partial`, `C20_unedited_file_refuted`, `C20_unedited_file_partial` |
| C21 | An edit only changes the ciphertexts of edited values | proved | Pathwise equality from the saved-nonce table.  | `C21_unchanged_values` |
| C22 | Any history of library operations leaves a file that decrypts to the current document | partial | Invariant over arbitrary lists of library operations. **False when saved parameters are used after a removal (C29); proved by invariant for all other histories, under the restrictions of C08, C46, C48 on documents.** | `C22_history_refuted`, `C22_history_partial` |
| C23 | A file is never built without recipients, and every recipient gets the data key | proved | Invariant of the recipient lists: no duplicates, and every entry wraps the data key.  | `C23_built_recipients`, `C23_needs_recipient` |
| C24 | Any single available private key is enough to decrypt | partial | Counterexamples with a damaged earlier entry; the positive cases under 'earlier entries do not decide'. **False of the code: the first entry with a matching private key decides.** | `C24_any_key_refuted`, `C24_empty_variable_refuted`, `C24_age_partial`, `C24_kms_partial`, `C24_undamaged_partial` |
| C25 | Adding a recipient grants access without disturbing the file | proved | Set-level characterisation of adding recipients; a file that cannot be opened stays as it is.  | `C25_added_age`, `C25_added_kms`, `C25_entries_open`, `C25_locked` |
| C26 | Removing a recipient rotates the data key | proved | The data key after a removal is a later draw; every entry wraps it.  | `C26_removed_age`, `C26_removed_kms`, `C26_next_encryption` |
| C27 | Removing an unknown recipient changes nothing | proved | Set-level characterisation of removing recipients.  | `C27_absent_age`, `C27_absent_kms` |
| C28 | Removing a recipient is all-or-nothing | partial | Counterexample: the second rewrap fails; what is kept is stated. **False of the code when a rewrap fails; the partial theorems give what is kept.** | `C28_atomic_refuted`, `C28_age_partial`, `C28_kms_partial` |
| C29 | Saved edit parameters stay valid after key rotation | partial | Counterexample: decrypt saving parameters, remove a key, encrypt with the old parameters. **False of the code.** | `C29_rotation_refuted`, `C29_stale_parameters_partial` |
| C30 | Replacing the document updates MAC and timestamp exactly when the document changes | partial | Equality of documents up to order against the comparison of the code. **The MAC part is proved in full; the time part is false for reordered keys, signed zeros and TOML NaN and characterised exactly.** | `C30_reorder_refuted`, `C30_zero_refuted`, `C30_nan_refuted`, `C30_set_map_partial` |
| C31 | Base64 and hex text codecs are lossless and canonical | proved | Induction on groups; canonicity by inversion.  | `C31_base64_lossless`, `C31_base64_canonical`, `C31_hex` |
| C32 | Integers never wrap or get truncated | proved | Integers outside the range of i64 are rejected, inside kept, for all formats. Preservation through encryption is C10. | `C32_value_layer`, `C32_document_integers`, `C32_document_exact` |
| C33 | Floats are stored in a canonical text that reads back to the same number | proved | Concrete f64 printing (shortest digits) and parsing (correctly rounded) over rationals.  | `C33_float_text` |
| C34 | The command line resolves the file format unambiguously | partial | Declarative reading of file extensions against the path functions. **Everything proved except that a file name whose extension is not UTF-8 gives the specific error: the code panics there.** | `C34_explicit`, `C34_neither`, `C34_extension`, `C34_error_partial`, `C34_refuted` |
| C35 | The command line reads exactly one input source | proved | Decision table for file and standard input, then for whole commands by inversion of runs. For get_input_string and for whole commands. | `C35_input`, `C35_in_place`, `C35_run` |
| C36 | A failing command leaves the user's file untouched | proved | Every run is split into computing and delivering; effects are recorded as a list of file operations. The converse: what can be computed is delivered if nothing fails. For every command and every failure; a failing operating system during the final write leaves a beginning of the new text. | `C36_success`, `C36_failure`, `C36_untouched`, `C36_complete` |
| C37 | In-place writes are crash-atomic | partial | Every prefix of the operations of a run is a crash state. **False of the code: every successful in-place command passes through an empty file. Proved: the file holds the old text or a beginning of the new. For JSON files: a file that can be read after the stop reads as the old or the complete new text.** | `C37_refuted`, `C37_partial`, `C37_json_partial` |
| C38 | Command-line options and configuration merge predictably | proved | The merge against a declarative reading of 'first matching rule', then through to the metadata of the encrypted file. The text of the path: `lossy` against the maximal subparts of the Unicode standard (Spec/SpecPath.v), existence and uniqueness. For the merged arguments and for the recipients and the rule in the encrypted file. | `C38_merge`, `C38_file`, `C38_path`, `C38_path_text` |
| C39 | mac_only_encrypted from the configuration takes effect when the flag is not given | partial | Refuted for every command line: the absent flag is `Some(false)`. **False of the code for every command line without the flag; proved if the argument were absent instead of false.** | `C39_refuted`, `C39_partial` |
| C40 | rops refresh makes the file agree with its creation rule and then is idempotent | partial | Agreement by cases on `implies_metadata`; document by the invariant of C55; idempotence from agreement. **Agreement with the rule is proved for every file. Keeping the document and idempotence are proved for storable documents, recipients and rules; idempotence is false of the code for rules with mac_only_encrypted = false. C40_json_partial: for JSON files with no law assumed of the text format.** | `C40_agrees`, `C40_refresh_partial`, `C40_refuted`, `C40_json_partial` |
| C41 | The configuration file is looked up in a fixed order | proved | Declarative lookup relation, proved sound, complete and deterministic.  | `C41_lookup`, `C41_unique` |
| C42 | Private keys are collected from the environment variable and then the key file | proved | Declarative reading of variables and key files. White space is ASCII white space. | `C42_age_keys`, `C42_kms_keys`, `C42_key_file` |
| C43 | AWS KMS key identifiers survive being written and read | partial | ARN texts; exactly which keys read back. **False of the code for ARNs without partition or account; exactly characterised. Behaviour of the aws-arn parser is taken from its documentation.** | `C43_key_id_refuted`, `C43_key_id_silent_refuted`, `C43_key_id_partial` |
| C44 | Parsing an AWS key id never aborts the program | partial | Exactly which texts abort. **False of the code; exactly the ARNs whose resource is not a key id or path/key id abort.** | `C44_no_abort_refuted`, `C44_no_abort_partial`, `C44_aborts_exact_partial` |
| C45 | Any top-level key can be encrypted | partial | Every document with the key `sops` fails, for every codec satisfying the law. **False of the code for the key sops, for every document that has it; every other key is covered by C11_text_partial. C45_json_unreadable: for JSON files with no law assumed of the text format.** | `C45_sops_unreadable`, `C45_sops_lost`, `C45_any_key_refuted`, `C45_toml_refuted`, `C45_json_unreadable` |
| C46 | TOML documents keep strings and nulls apart | partial | Adapters by induction on documents; counterexample by conversion. **Native TOML documents are kept; a converted document whose strings include "null" is not.** | `C46_native`, `C46_conversion_refuted`, `C46_conversion_partial`, `C46_file_refuted` |
| C47 | Value order in TOML files survives writing | partial | The layout function of the TOML writer; counterexample. **False of the code for TOML documents with a table before a plain value; otherwise see C11_text_partial.** | `C47_layout_partial`, `C47_toml_order_refuted` |
| C48 | Converting decrypted content to another format never aborts | partial | Adapter inversion; non-finite floats are the only case. **False of the code: NaN and infinities abort the conversion to JSON; that is the only case.** | `C48_conversion_refuted`, `C48_conversion_partial` |
| C49 | Cancelling or not changing an edit does not write | proved | The editing loop against a relation on lists of attempts. The statement; an edit that does not change the document is written all the same. | `C49_written`, `C49_abandoned`, `C49_last` |
| C50 | Encrypting an already encrypted file is harmless or refused | partial | Document layer: two `sops` fields. **False of the code: encrypting an encrypted file always gives an unreadable YAML or JSON file; in TOML the inner metadata is lost. C50_json_unreadable: for JSON files with no law assumed of the text format.** | `C50_again_unreadable`, `C50_again_refuted`, `C50_toml_refuted`, `C50_json_unreadable` |
| C51 | The MAC is a fixed-length uppercase hex string that round-trips | partial | Length and alphabet of hex; what is read as a MAC; the error message. **The MAC text is proved in full; the error message does not name the stored MAC.** | `C51_mac_text`, `C51_mac_parse`, `C51_message_refuted`, `C51_message_partial` |
| C52 | Plaintext is rejected where ciphertext is expected | proved | Inversion of the adapters for encrypted documents.  | `C52_plaintext_rejected`, `C52_classification` |
| C53 | File metadata survives being written and read | partial | Metadata layer round trip under the codec law. **False of the code for KMS keys whose ARN has no partition or account; proved for all other metadata. C53_json_partial: for JSON files with no law assumed of the text format.** | `C53_metadata_partial`, `C53_metadata_refuted`, `C53_json_partial` |
| C54 | AWS private key text is parsed into its three parts | proved | Splitting lemmas.  | `C54_three_parts`, `C54_fewer_rejected`, `C54_round_trip` |
| C55 | Sequences of CLI commands preserve the secret document | partial | Invariant `held` (the file holds the document, under its recipients) preserved by every command, succeeding or failing; induction over sequences. **Proved for any number of commands, in any surroundings, succeeding or failing, with storable recipients and rules and no failing writes; false of the code for KMS keys without partition or account. C55_json_partial: the same for JSON files with no law assumed of the text format.** | `C55_partial`, `C55_refuted`, `C55_json_partial` |
| C56 | Editing a file written by another tool never reuses a nonce for a different plaintext | partial | Histories where the file comes from another tool. **False of the code for integers and floats in a non-canonical spelling; proved for strings and booleans.** | `C56_foreign_plaintext_refuted`, `C56_foreign_plaintext_partial` |
| C57 | A rule in file metadata is applied or refused | partial | serde's flattened enum: the first entry that parses, errors ignored. **False of the code: an invalid regular expression or a second rule is ignored silently.** | `C57_rule_refuted`, `C57_file_refuted`, `C57_rule_partial` |
| C58 | JSON floats survive writing and reading | partial | Counterexample with serde_json's grammar and float reading; the positive theorem through the text layer. **False of the code for plaintext floats that serde_json reads inexactly; proved if the plaintext floats are read as printed.** | `C58_float_refuted`, `C58_plain_floats_partial`, `C58_json_refuted`, `C67_json_encrypted_partial` |
| C59 | rops edit leaves no plaintext behind | partial | All exits of a run, including failures, panics and crash points. **Proved for every exit of the program if removing the file succeeds; false if the process is stopped during the session.** | `C59_partial`, `C59_refuted` |
| C60 | Commands report errors instead of aborting | partial | Counterexamples, and the complete list of causes: the abort is followed through every command down to the model function that panics. The parsers are assumed to report errors and to deliver values of their types (`parser_law`), the printers to print such values (`printer_law`). For JSON both are proved of the reader and printer (Proofs/JsonHeld.v, JsonTotal.v): decoded strings are UTF-8 because text can be cut at ASCII characters, numbers fit or are finite. **False of the code: EDITOR without a word, unwritable standard output and file names that are not UTF-8 panic.  Proved instead: every abort has one of eleven listed causes.  For JSON files the laws of the codec are proved (C60_json_reads, C60_json_prints), so C60_json_partial assumes them of YAML and TOML only.** | `C60_causes_partial`, `C60_line_partial`, `C60_json_partial`, `C60_json_reads`, `C60_json_prints`, `C60_editor_refuted`, `C60_output_refuted`, `C60_extension_refuted`, `C34_refuted` |
| C61 | rops encrypt then rops decrypt restores the document | partial | C38 and C55 composed with the converse direction of C36. **For storable documents, recipients and rules (see C08, C43, C45, C48, C57, C58 for the others). C61_json_partial: for JSON with no law assumed of the text format.** | `C61_encrypt_partial`, `C61_decrypt_partial`, `C61_json_partial` |
| C62 | rops edit stores the edited document | partial | The last attempt of the session determines the document; the edit step of the invariant of C55. **For storable documents; see C61. C62_json_partial: for JSON with no law assumed of the text format.** | `C62_partial`, `C62_json_partial` |
| C63 | rops keys add and keys remove change exactly the recipients | partial | The add and remove steps of the invariant of C55, with sets of recipients and the data key. **For storable documents and recipients; see C61. The _json_ theorems: for JSON with no law assumed of the text format.** | `C63_add_partial`, `C63_remove_partial`, `C63_json_add_partial`, `C63_json_remove_partial` |
| C64 | JSON documents survive being written and read | proved | Writer and reader by induction on documents. serde_json's writer and reader modelled concretely (Model/Json.v); no assumption about the codec. | `C64_json_text`, `C64_json_injective`, `C64_json_cut` |
| C65 | JSON changes nothing but the last digits of floats | proved | Rounding errors over the rationals: the printed decimal is within half a unit, reading rounds at most three times. All finite floats; floats of up to 15 digits are kept exactly (sizes in short_decimal). The witness shows a float that changes. | `C65_json_floats` |
| C66 | Timestamps survive being written and read | proved | Scanners on printed digits; offsets against a day count of the Gregorian calendar. chrono's relaxed RFC 3339 reader modelled concretely (Model/Chrono.v). | `C66_times`, `C66_real`, `C66_offsets` |
| C67 | JSON files round trip without assumptions about the parser | partial | C11 and C58 with the laws of the codec discharged by C64 to C66. **C11 for JSON with no assumption about the codec; documents as in C11 (no key sops, depth, strings that survive colons). Floats must be short decimals unless encrypted (C58).** | `C67_json_file_partial`, `C67_json_encrypted_partial` |
| C68 | No command locks out the person who runs it, or leaves a file without recipients | partial | The rewritten file is opened before it is written, with the entries that are kept; entries read from a file are distinct. **False of refresh: a configuration that no longer names the user locks them out. Proved for keys add, keys remove and edit; of encrypt and refresh, that exactly those named can open the file.** | `C68_open_partial`, `C68_named`, `C68_recipients`, `C68_last`, `C68_refresh_refuted` |
| C69 | An encrypted file reveals of its secrets only their types and lengths | proved | Relational: the two encryptions are run in step, value by value; the lengths of base64 and JSON text follow from the lengths of the bytes. Fresh encryption (no saved nonces). C69_booleans_refuted records a consequence: the length shows which boolean is encrypted. For re-encryption with saved nonces see C20 and C21. | `C69_map`, `C69_file`, `C69_booleans_refuted` |
| C70 | Commands on different files do not disturb each other | proved | Commands as trees of single steps, proved equal to the functions of Model/Cli.v; a simulation between each process and its run alone, on the files it looks at or changes. Looking at a file, emptying it and writing a text are single steps. Commands draw from different places of one random stream. | `C70_alone`, `C70_others`, `C70_schedules`, `C70_ends` |
| C71 | Commands on one file at the same time lose neither its document nor each other's changes | partial | Counterexamples by computation. For the document: a command reads the file once, then at most empties it, writes it and ends; so each process follows its run alone on the text it read, which holds the document (C55). **Both parts are false: commands do not lock the file. Two that read it before one writes lose a change (C71_lost_refuted); overlapping writes leave a text that is neither (C71_torn_refuted). Proved: the document survives every schedule in which nothing happens between a command's emptying and writing the file.** | `C71_document_partial`, `C71_lost_refuted`, `C71_torn_refuted` |
| C72 | Only who has a private key of a recipient can use an encrypted file | partial | Every way through the commands opens the data key first; the causes of success are followed back to the private key. The last part is C63 composed with it. **Proved for every codec, except the last sentence: that the file after keys remove reads back with the remaining recipients needs the codec law and the documents of C55 (none for JSON). Of KMS keys the profile must be available. What an attacker without rops can do is not modelled.** | `C72_needs_key`, `C72_locked_out`, `C72_removed_partial`, `C72_json_removed_partial` |
| C73 | The command line is read as its grammar says | proved | The reader of lines is compared with inductive relations for spelling and meaning, with their own tables of options and names. What clap derives from the attributes is modelled from knowledge of clap 4. Printing help and reporting an error are one reply. | `C73_grammar`, `C73_order`, `C73_every`, `C73_crash`, `C73_changes` |
| C74 | --age and --aws-kms take lists separated by spaces | partial | Lines of the two shapes are read in general. **False of the code: each --age takes one value. The second key is taken for the file (C74_second_refuted), a third word is refused (C74_more_refuted). Proved: keys given with one option each are all taken, in order.** | `C74_partial`, `C74_second_refuted`, `C74_more_refuted` |
| C75 | The editor is started as EDITOR says | proved | The automaton for the words is compared with an inductive grammar, both ways, state by state. The rest: surroundings that differ only in what other programs would do give the same run. Expansions ($X, ~, globs) are not part of the grammar, as the code does none. A value without a word aborts the program (C75_aborts, C60). | `C75_started`, `C75_selected`, `C75_words`, `C75_one_reading`, `C75_every`, `C75_aborts` |
| C76 | Files are laid out as SOPS lays them out | proved | The reader is compared, field by field and both ways, with relations that use literal names. The writer: its entries are read back as the same metadata, which is then what they say. Recipients are told up to their order: of several entries for one recipient the last counts. An integration listed as null is refused (C76_null), although SOPS lists integrations without recipients that way. Entries of the document with YAML tags or keys that are not scalars are a hypothesis of C76_accepts. That the text has these entries is up to the codec (C47, C53). | `C76_read`, `C76_accepts`, `C76_written`, `C76_null` |
| C77 | JSON text is read as RFC 8259 says | proved | Modelled: `serde_json` reading (Model/Json.v). Both directions between the reader and a declarative grammar: soundness by induction on the depth and the fuel, completeness by mutual induction over the grammar. Numbers: the digits that are kept, the power of ten and the roundings are followed with explicit error bounds (Proofs/JsonNumber.v). The grammar in Spec/SpecJsonText.v is written from RFC 8259 and does not use the reader. Witnesses: C77_read_witness, C77_accepts_witness, C77_refused_witness. | `C77_read`, `C77_accepts`, `C77_exact`, `C77_one_meaning`, `C77_total`, `C77_refused` |
| C78 | Repeated keys | proved | Modelled: the insertion of entries by `serde_json` and `serde_yaml` (`settle`, Model/Document.v). `last_wins` and `keys_differ` are stated on the entry list of the text; proved by induction on values, and on the list of entries from its end. C78_json_witness shows an entry of a text that is in no part of the document. | `C78_json`, `C78_others` |
| C79 | Names in the configuration | proved | `read_config` against `says_config` in Spec/SpecConfig.v, which speaks about the entries of the document by name only; both directions field by field Rules and keys as tables or as arrays; the TOML text is a parameter. | `C79_read`, `C79_other_names`, `C79_other_keys`, `C79_array`, `C79_array_short` |
| C80 | Commands that take turns on one file act as one after the other | proved | Proofs/Turns.v: invariant over the steps of the machine of Model/Script.v: those that have read the file and ended form a sequential run, the one that has read it is where it would be alone after that run, the others do not depend on the file; those that never read it are put at the end The code does not lock files; without taking turns the claim is false (C71). C80_json_added: for JSON files with no law assumed of the text format. | `C80_serial`, `C80_added`, `C80_json_added` |
| C81 | The exit status says what happened | proved | Model/Main.v composes parse_line (C73) and run_command and maps the outcome to a status. C81_zero from C36_success and the grammar of C73; C81_other from C36_untouched; C81_iff needs the converse, run_does and run_gives_up (Proofs/CliDoes.v); C81_abort from C60 and C73. Help text and standard error are not modelled. Help and usage errors of clap are one outcome (0 or 2) in which nothing is run. An editing session given up ends with status 0. C81_json_abort assumes nothing of the JSON parser and printer. | `C81_zero`, `C81_other`, `C81_iff`, `C81_abort`, `C81_json_abort`, `C81_extension_aborts` |
| C82 | What a command does depends only on the file it names and on what the configuration says | proved | `C82_depends`: two states of the system that agree on `looks_at` (the input file, the places where a configuration may be, the temporary file). `C82_place`: `elsewhere` changes the working directory and ROPS_CONFIG, `with_config` changes `--config`; both sides are `configured` with the same rules and agree on `subject`. Proofs by induction on the script of a command (Proofs/Depends.v). Witness: the same document is encrypted under the same rules found in two places. The second part is for runs without failures of input or output, and for a configuration that can be read; otherwise every command ends with an error (C41). | `C82_depends`, `C82_place` |
| C83 | Everyone who opens a file sees the same document | proved | `ambiguous` names the coincidence: two data keys, everything authentic under both, two MACs that fit. `C83_view` for the library, `C83_honest` if `all_wrap`, `C83_commands` for two runs of `rops decrypt` in different surroundings. Witness: Alice and Bob decrypt the small file. The coincidence is stated, not excluded: AES-GCM does not commit to its key, and cryptographic strength is not modelled. | `C83_view`, `C83_honest`, `C83_commands` |
| C84 | A file can be decrypted in place and encrypted again | partial | Proofs/NormalAgain.v: the normalised document (tags dropped, dates as strings) is storable if the document is, and has the same internal form; C61_decrypt_partial and C61_encrypt_partial on both sides. Witness: the small file is decrypted in place and encrypted again for Alice alone. **For storable documents, recipients and rules; see C55. C84_json_partial: for JSON with no law assumed of the text format.** | `C84_partial`, `C84_json_partial` |

## 5. Where the code disagrees with its properties

Each of these is a theorem with a concrete witness.

* `C03`, `C44`, `C48`, `C60`: input can abort the program: over-long `iv` or `tag` texts, ARNs with an unexpected resource, NaN and infinities
  converted to JSON, a blank `EDITOR`, a closed standard output, a file name that is not UTF-8.
* `C07`, `C08`, `C11`: a key containing a colon can be taken for several keys, so that encryption and decryption disagree.
* `C12`: some damaged files abort instead of giving an error.
* `C14`: the MAC does not cover types, nulls, boundaries between values, or keys.
* `C19`: an edit can encrypt two different MAC inputs under one nonce. `C56`: so can editing a file of another tool, for values.
* `C20`: equal values in one sequence get new ciphertexts when an unedited file is encrypted again.
* `C24`: the first recipient entry with a matching private key decides, even if it is damaged and a later one works.
* `C28`, `C29`: a failing removal leaves the file half changed; saved parameters carry the old data key over a rotation.
* `C30`: reordered keys, signed zeros and NaN: the time stamp is not updated when the document changes, or updated when it does not.
* `C37`: in-place writes truncate the file first.
* `C39`: `mac_only_encrypted` in the configuration never takes effect for `rops encrypt`.
* `C40`: with `mac_only_encrypted: false` in the configuration every refresh encrypts the file again with new keys.
* `C43`, `C53`, `C55`: KMS keys without partition or account are accepted and make the file unreadable.
* `C45`, `C50`: a top-level key `sops` makes a file unreadable or is lost; so does encrypting twice.
* `C46`, `C47`, `C58`: TOML strings `"null"` in converted documents, TOML tables before values, and some JSON floats break the MAC.
* `C51`: the error message for a wrong MAC does not name the stored MAC.
* `C57`: an invalid regular expression, or a second rule, in the metadata is ignored silently.
* `C59`: a crash during `rops edit` leaves the plaintext on disk.
* `C68`: `rops refresh` under a changed configuration can lock out the person who runs it.
* `C69`: the length of an encrypted boolean shows its value.
* `C71`: commands do not lock the file: two at the same time can lose a change, or leave a file that can not be read.
* `C74`: `--age` and `--aws-kms` do not take space separated lists: the second key is taken for the file.
* `C76`: a file that lists an integration as `null`, as SOPS does for those without recipients, can not be read.
* `C78`: of JSON entries with the same name all but the last are lost without an error. YAML and TOML refuse repeated keys.
* `C79`: a misspelled name in the configuration file is no error: the option is ignored.
* `C81`: an editing session that is given up ends with status 0, as one that saved does.
