{"id": "C01", "title": "Typed values survive the byte form that is encrypted", "statement": "Every value a rops map can hold (string, boolean, 64-bit integer, float) is turned into bytes for encryption in such a way that reading those bytes back with the recorded type returns exactly the same value. Bytes that are not the canonical form of the recorded type are never silently turned into a value of another type.", "quantifier": "every UTF-8 string, both booleans, every i64, every float obtained from an f64", "why_tests_cant": "The value space is infinite (all strings, 2^64 integers, all f64 renderings); tests sample four literals.", "anchors": ["crates/lib/src/file/map/value/core.rs RopsValue::as_bytes, RopsValue::from_bytes, RopsFloat::from", "crates/lib/src/file/map/value/variant.rs RopsValueVariant"]}
{"id": "C02", "title": "Encrypted values survive being written to and read from text", "statement": "Displaying an encrypted value as ENC[cipher,data:..,iv:..,tag:..,type:..] and parsing that text returns the same ciphertext, nonce, tag and type.", "quantifier": "every ciphertext of any length, every nonce, every tag, every value type", "why_tests_cant": "Base64 length classes, padding and delimiter clashes make this a statement about all byte strings.", "anchors": ["crates/lib/src/file/map/value/encrypted.rs Display, FromStr for EncryptedRopsValue", "crates/lib/src/base64utils.rs EncodeBase64, DecodeBase64"]}
{"id": "C03", "title": "Parsing encrypted-value text never aborts the program", "statement": "Parsing an arbitrary string as an encrypted value returns either an encrypted value or an error. (Expected of a parser fed by untrusted files. The faithful model shows which strings abort instead.)", "quantifier": "every string offered as an encrypted value", "why_tests_cant": "A test can only try particular malformed strings; the offending class is defined by decoded length.", "anchors": ["crates/lib/src/file/map/value/encrypted.rs FromStr", "crates/lib/src/base64utils.rs DecodeBase64 for T: AsMut<[u8]>", "crates/lib/src/cryptography/nonce.rs FromStr", "crates/lib/src/cryptography/authorization_tag.rs FromStr"]}
{"id": "C04", "title": "Encrypted-value text is accepted only in its documented shape", "statement": "A string is accepted as an encrypted value only if it is ENC[ <cipher name> , data:<base64> , iv:<base64> , tag:<base64> , type:<str|bool|int|float> optionally followed by further comma separated components ], and the accepted value is determined by those fields. Exactly one encrypted value results, and re-displaying it gives text that parses to the same value.", "quantifier": "every string", "why_tests_cant": "It is a characterisation of the accepted language, i.e. about all strings including adversarial ones.", "anchors": ["crates/lib/src/file/map/value/encrypted.rs FromStr"]}
{"id": "C05", "title": "A value encrypted at a key path decrypts at that key path", "statement": "Encrypting any value under any data key, nonce and key path, and decrypting the result under the same data key and key path, returns the same typed value.", "quantifier": "every value, data key, nonce and key path within the cipher's length limits", "why_tests_cant": "AES-GCM correctness on every length and content cannot be sampled.", "anchors": ["crates/lib/src/file/map/value/core.rs RopsValue::encrypt", "crates/lib/src/file/map/value/encrypted.rs EncryptedRopsValue::decrypt", "crates/lib/src/cryptography/cipher/aes256_gcm.rs"]}
{"id": "C06", "title": "Ciphertexts are bound to their key path, nonce, tag and data key", "statement": "If an encrypted value that was altered in any of ciphertext, nonce or tag, or that was moved to another key path, still decrypts, then the exact authentication tag stored in the altered value is the AES-GCM tag of the altered message, i.e. an explicit tag forgery or collision has been exhibited; there is no other way to be accepted.", "quantifier": "every original and every altered encrypted value, every pair of key paths", "why_tests_cant": "Adversarial inputs: all possible alterations must be covered.", "anchors": ["crates/lib/src/file/map/value/encrypted.rs decrypt", "crates/lib/src/cryptography/cipher/aes256_gcm.rs decrypt"]}
{"id": "C07", "title": "Which values get encrypted follows the documented partial-encryption rule", "statement": "With no rule every non-null value is encrypted. With encrypted_suffix/encrypted_regex a value is encrypted iff its own key or an enclosing key matches; with unencrypted_suffix/unencrypted_regex iff neither its own key nor an enclosing key matches. Sequence elements follow the key that holds the sequence.", "quantifier": "every document tree, every nesting depth, every rule and every matching predicate for regexes", "why_tests_cant": "Depth and shape of documents are unbounded and regex semantics are arbitrary.", "anchors": ["crates/lib/src/file/map/encrypt.rs encrypt_map_recursive", "crates/lib/src/file/metadata/partial_encryption.rs resolve, escape_encryption", "book/configuration.md partial encryption"]}
{"id": "C08", "title": "Encryption, decryption and MAC agree on which values are encrypted", "statement": "The side that encrypts, the side that parses an encrypted document, and the MAC computation classify every value identically, so that a file written by rops is never rejected, or left in plaintext, because of a disagreement.", "quantifier": "every document, every partial-encryption rule", "why_tests_cant": "The three traversals are separate code; agreement is about every key string, including ones with the path separator in them.", "anchors": ["crates/lib/src/file/map/encrypt.rs key_path.last()", "crates/lib/src/file/map/key_path.rs last", "crates/lib/src/file/format/adapters.rs encrypted_to_internal", "crates/lib/src/file/metadata/mac/decrypted.rs traverse_map"]}
{"id": "C09", "title": "Encryption keeps structure and hides exactly the in-scope values", "statement": "The encrypted document has the same keys in the same order, the same nesting, the same sequence lengths and the same nulls as the plaintext one; out-of-scope values are carried over verbatim and every in-scope value is replaced by an encrypted value whose ciphertext has the length of the value's byte form.", "quantifier": "every document and every rule", "why_tests_cant": "Structural statement over unbounded trees.", "anchors": ["crates/lib/src/file/map/encrypt.rs", "crates/lib/src/file/map/state.rs RopsMapEncryptedLeaf"]}
{"id": "C10", "title": "Decrypting an encrypted map returns the original map", "statement": "Encrypting any map (with or without saved nonces, with any rule) under a data key and decrypting under the same key returns exactly the original map, including key order.", "quantifier": "every map, rule, data key, randomness, set of saved nonces", "why_tests_cant": "Unbounded trees and all randomness outcomes.", "anchors": ["crates/lib/src/file/map/encrypt.rs", "crates/lib/src/file/map/decrypt.rs"]}
{"id": "C11", "title": "A file built and encrypted by rops decrypts to what was put in", "statement": "For every plaintext document, set of recipients and options: if building the encrypted file succeeds, then writing it out, reading it and decrypting it with a private key of one of the recipients succeeds and yields the original document (YAML, JSON and TOML; up to the format's documented normalisation of tags and dates).", "quantifier": "every document, recipient set, option combination, clock value, randomness; each of the three formats", "why_tests_cant": "End-to-end over unbounded documents and randomness.", "anchors": ["crates/lib/src/file/builder/core.rs RopsFileBuilder::encrypt", "crates/lib/src/file/core.rs RopsFile::decrypt", "crates/lib/src/file/format/yaml/mod.rs", "crates/lib/src/file/format/json/mod.rs", "crates/lib/src/file/format/toml/mod.rs"]}
{"id": "C12", "title": "Decryption succeeds only when the stored MAC equals the MAC of the decrypted content", "statement": "Whenever decryption (plain, or saving parameters for editing) returns a document, the MAC stored in the file, authenticated against the last-modified time, equals the SHA-512 MAC recomputed over that document under the file's own settings; in every other case an error is returned and no document.", "quantifier": "every encrypted file including corrupted and adversarial ones", "why_tests_cant": "Negative guarantees over all inputs.", "anchors": ["crates/lib/src/file/core.rs decrypt, decrypt_and_save_parameters, validate_mac", "crates/lib/src/file/metadata/mac/encrypted_mac.rs"]}
{"id": "C13", "title": "Changing, adding, removing or reordering values is detected", "statement": "If two encrypted files with the same authenticated MAC both decrypt, then the concatenations of the byte forms of all covered values, in document order, are equal, or those two exact byte strings are a SHA-512 collision.", "quantifier": "every pair of files, in particular an original and any tampered version", "why_tests_cant": "Adversary-chosen modifications.", "anchors": ["crates/lib/src/file/metadata/mac/decrypted.rs Mac::compute", "crates/lib/src/file/core.rs validate_mac"]}
{"id": "C14", "title": "The MAC protects the document's structure (keys, types, nulls, value boundaries)", "statement": "If a tampered file decrypts (without an AEAD forgery or hash collision), the decrypted document equals the original one. (Expected from the documentation of MAC verification; the faithful model shows which structural changes are not covered.)", "quantifier": "every tampered version of every file", "why_tests_cant": "Needs a search over all modifications.", "anchors": ["crates/lib/src/file/metadata/mac/decrypted.rs compute", "book/concepts.md MAC"]}
{"id": "C15", "title": "mac_only_encrypted restricts the MAC to encrypted values and is itself tamper evident", "statement": "With mac_only_encrypted, changes to values outside encryption scope never affect the MAC, while every in-scope value is covered; without it all values are covered. Adding or removing the option on an existing file changes the hashed byte string, so it is detected unless those two exact byte strings collide.", "quantifier": "every document and rule; every pair of documents differing only in out-of-scope values", "why_tests_cant": "Universally quantified over documents.", "anchors": ["crates/lib/src/file/metadata/mac/decrypted.rs compute", "crates/lib/src/file/metadata/mac/mac_only_encrypted.rs"]}
{"id": "C16", "title": "The last-modified time is authenticated", "statement": "If a file's last-modified time is altered (at one-second granularity) and the file still decrypts, then the stored MAC tag is valid for two different associated data strings, i.e. an explicit AEAD tag collision; distinct timestamps always give distinct associated data.", "quantifier": "every file and every pair of timestamps", "why_tests_cant": "All pairs of timestamps.", "anchors": ["crates/lib/src/file/metadata/mac/encrypted_mac.rs decrypt", "crates/lib/src/file/metadata/mac/decrypted.rs encrypt_impl", "crates/lib/src/file/timestamp.rs Display"]}
{"id": "C17", "title": "Fresh encryption never reuses a random draw", "statement": "Encrypting a file afresh uses a separate draw of the random generator for the data key, for each encrypted value and for the MAC; so if the generator does not repeat itself all nonces of the file are pairwise different.", "quantifier": "every document, every rule, every generator output", "why_tests_cant": "Depends on all tree shapes and the order of draws.", "anchors": ["crates/lib/src/file/map/encrypt.rs unwrap_or_else(Nonce::new)", "crates/lib/src/file/builder/core.rs encrypt", "crates/lib/src/cryptography/nonce.rs new"]}
{"id": "C18", "title": "Editing reuses a value nonce only for an identical message", "statement": "When a file that rops wrote is edited and re-encrypted with saved parameters, any number of times, a saved value nonce is used only for the same key path and the same typed value it was saved for, so the pair (key, nonce) is never applied to two different (path, plaintext) messages in map values.", "quantifier": "every edit history step, every document", "why_tests_cant": "Nonce misuse depends on which values collide in the lookup table, over all documents.", "anchors": ["crates/lib/src/file/map/saved_nonces.rs", "crates/lib/src/file/map/encrypt.rs", "crates/lib/src/file/map/decrypt.rs"]}
{"id": "C19", "title": "No (data key, nonce) pair is ever used for two different messages across an edit", "statement": "Across decrypt, edit and re-encrypt with saved parameters, AES-GCM is never invoked with the same data key and nonce on two different (associated data, plaintext) pairs, for values and for the MAC alike. (Required by GCM's security contract.)", "quantifier": "every document, every edit, every clock value", "why_tests_cant": "Needs the class of edits that keep the MAC but change the timestamp.", "anchors": ["crates/lib/src/file/metadata/mac/decrypted.rs encrypt_impl", "crates/lib/src/file/metadata/mac/saved_mac_nonce.rs", "crates/lib/src/file/core.rs set_map, encrypt_with_saved_parameters"]}
{"id": "C20", "title": "Re-encrypting an unedited file reproduces it byte for byte", "statement": "Decrypting with saved parameters and re-encrypting without changes yields exactly the original encrypted file.", "quantifier": "every file produced by rops", "why_tests_cant": "Fails only for documents with repeated values under one key, which tests do not contain.", "anchors": ["crates/lib/src/file/core.rs decrypt_and_save_parameters, encrypt_with_saved_parameters", "crates/lib/src/file/map/decrypt.rs saved_nonces.insert", "crates/lib/tests/parity_checks.rs"]}
{"id": "C21", "title": "An edit only changes the ciphertexts of edited values", "statement": "After an edit, every value whose key path and typed value are unchanged (and unique under its key) keeps its exact ciphertext, nonce and tag.", "quantifier": "every document and every edited document", "why_tests_cant": "All pairs of documents.", "anchors": ["crates/lib/src/file/map/encrypt.rs", "crates/lib/src/file/map/saved_nonces.rs"]}
{"id": "C22", "title": "Any history of library operations leaves a file that decrypts to the current document", "statement": "Starting from a freshly built file, after any sequence of decrypt, replace-document, add-recipient, remove-recipient, encrypt and edit-style re-encrypt operations that succeed, the file decrypts to the document set last.", "quantifier": "every finite sequence of operations with arbitrary arguments, clock values and randomness", "why_tests_cant": "Unbounded histories.", "anchors": ["crates/lib/src/file/core.rs", "crates/lib/src/file/metadata/core.rs", "crates/lib/src/file/builder/core.rs"]}
{"id": "C23", "title": "A file is never built without recipients, and every recipient gets the data key", "statement": "Building an encrypted file fails if no recipient key was given; otherwise the file carries exactly one entry per distinct recipient, and each entry opens, with that recipient's private key, to the one data key that encrypts all values and the MAC.", "quantifier": "every list of recipients (with duplicates) of every integration", "why_tests_cant": "All recipient lists, duplicates and orders.", "anchors": ["crates/lib/src/file/builder/integration_metadata.rs", "crates/lib/src/file/metadata/integration/core.rs add_keys", "crates/lib/src/file/metadata/integration/units.rs"]}
{"id": "C24", "title": "Any single available private key is enough to decrypt", "statement": "If at least one recipient entry of the file can be opened with an available private key, decryption obtains the data key, irrespective of the state of the other entries.", "quantifier": "every combination of recipient entries, private keys and damage to other entries", "why_tests_cant": "Combinatorial in entries and environment.", "anchors": ["crates/lib/src/file/metadata/integration/core.rs decrypt_data_key, find_data_key", "crates/lib/src/integration/age.rs", "crates/lib/src/integration/aws_kms/core.rs", "book/concepts.md"]}
{"id": "C25", "title": "Adding a recipient grants access without disturbing the file", "statement": "Adding recipients to a decrypted file leaves its document, MAC, timestamp, options and other entries unchanged; afterwards both the new and all old recipients open the same data key. Adding an existing recipient again does not create a second entry.", "quantifier": "every file, every list of added keys", "why_tests_cant": "All prior recipient sets and orders.", "anchors": ["crates/lib/src/file/core.rs add_keys", "crates/lib/src/file/metadata/integration/units.rs append"]}
{"id": "C26", "title": "Removing a recipient rotates the data key", "statement": "After a successful removal the removed recipient has no entry, every remaining entry opens to one freshly drawn data key, and the next encryption uses that new key for all values and the MAC, so nothing in the new file is encrypted under the key the removed party knew.", "quantifier": "every file and recipient set", "why_tests_cant": "All recipient sets across two integrations.", "anchors": ["crates/lib/src/file/core.rs remove_integration_key", "crates/lib/src/file/metadata/core.rs remove_integration_key"]}
{"id": "C27", "title": "Removing an unknown recipient changes nothing", "statement": "Removing a key that is not a recipient reports absence and leaves the file's document, metadata and data key exactly as they were.", "quantifier": "every file and absent key", "why_tests_cant": "All files.", "anchors": ["crates/lib/src/file/metadata/core.rs remove_integration_key"]}
{"id": "C28", "title": "Removing a recipient is all-or-nothing", "statement": "If removing a recipient fails, the in-memory file is left as it was. (Expected of an operation returning an error.)", "quantifier": "every failure point of the integrations", "why_tests_cant": "Failure can occur at any entry; needs all crash/failure points.", "anchors": ["crates/lib/src/file/metadata/core.rs remove_integration_key, update_data_key"]}
{"id": "C29", "title": "Saved edit parameters stay valid after key rotation", "statement": "Re-encrypting with saved parameters after a recipient was removed gives a file that its remaining recipients can decrypt.", "quantifier": "every history mixing the two features", "why_tests_cant": "Needs a history across two features.", "anchors": ["crates/lib/src/file/core.rs encrypt_with_saved_parameters", "crates/lib/src/file/saved_parameters.rs", "crates/lib/src/file/metadata/core.rs remove_integration_key"]}
{"id": "C30", "title": "Replacing the document updates MAC and timestamp exactly when the document changes", "statement": "Replacing the document always makes the stored MAC the MAC of the new document; the last-modified time is set to now if the new document differs from the old one and kept otherwise.", "quantifier": "every pair of documents and clock values", "why_tests_cant": "All pairs of documents, including reorderings.", "anchors": ["crates/lib/src/file/core.rs set_map", "crates/lib/src/file/format/map.rs"]}
{"id": "C31", "title": "Base64 and hex text codecs are lossless and canonical", "statement": "Encoding any byte string to base64 (or hex) and decoding returns it; decoding accepts the text with or without padding and rejects every non-canonical or foreign-character text, so two different unpadded texts never decode to the same bytes.", "quantifier": "every byte string and every text", "why_tests_cant": "All byte strings and texts.", "anchors": ["crates/lib/src/base64utils.rs", "crates/lib/src/file/metadata/mac/decrypted.rs FromStr, Display"]}
{"id": "C32", "title": "Integers never wrap or get truncated", "statement": "An integer outside the signed 64-bit range in a document is rejected with an error; every integer in range is preserved exactly through encryption and decryption in every format.", "quantifier": "every integer a YAML, JSON or TOML document can hold", "why_tests_cant": "2^65 values at boundaries.", "anchors": ["crates/lib/src/file/format/yaml/mod.rs", "crates/lib/src/file/format/json/mod.rs", "crates/lib/src/file/format/map.rs IntegerOutOfRange", "crates/lib/src/file/map/value/core.rs from_bytes"]}
{"id": "C33", "title": "Floats are stored in a canonical text that reads back to the same number", "statement": "Converting any f64 to the stored text and back gives the same number (all NaNs identified), and the stored text is a fixed point, so a second encryption produces the same bytes and the same MAC.", "quantifier": "every f64 bit pattern", "why_tests_cant": "2^64 bit patterns.", "anchors": ["crates/lib/src/file/map/value/core.rs RopsFloat From<f64>, From<RopsFloat> for f64, from_bytes"]}
{"id": "C34", "title": "The command line resolves the file format unambiguously", "statement": "An explicit format option always wins; otherwise the extension decides, case-insensitively, with yml meaning yaml; otherwise a specific error is returned. No other extension is accepted.", "quantifier": "every combination of option and file name", "why_tests_cant": "All path strings.", "anchors": ["crates/cli/src/cli/common.rs get_format", "crates/cli/src/args/misc_args.rs Format"]}
{"id": "C35", "title": "The command line reads exactly one input source", "statement": "With a file argument and piped stdin the command refuses; with neither it refuses; otherwise it reads the one that is present.", "quantifier": "every combination of arguments and stdin state", "why_tests_cant": "Cross product of environment states.", "anchors": ["crates/cli/src/cli/common.rs get_input_string"]}
{"id": "C36", "title": "A failing command leaves the user's file untouched", "statement": "If any of encrypt, decrypt, edit, keys add/remove or refresh returns an error before its final write, the content of the user's file is what it was before; and on success the file content is exactly the new document text.", "quantifier": "every file content, every failure point before the write, every command", "why_tests_cant": "All failure points of all commands.", "anchors": ["crates/cli/src/cli/encrypt.rs", "crates/cli/src/cli/decrypt.rs", "crates/cli/src/cli/edit.rs", "crates/cli/src/cli/keys.rs", "crates/cli/src/cli/refresh.rs", "crates/cli/src/cli/common.rs write_or_print"]}
{"id": "C37", "title": "In-place writes are crash-atomic", "statement": "If the process or machine stops at any point during an in-place command, the file afterwards holds either the complete old or the complete new content.", "quantifier": "every crash point of the write", "why_tests_cant": "Crash points are not reachable from unit tests.", "anchors": ["crates/cli/src/cli/common.rs write_or_print (std::fs::write)", "crates/cli/src/cli/edit.rs"]}
{"id": "C38", "title": "Command-line options and configuration merge predictably", "statement": "rops encrypt uses the first creation rule whose path expression matches and no other; recipients are the command-line ones followed by the rule's; a partial-encryption option given on the command line overrides the rule's. The expression is matched with the path as given, except that every part of it that is not UTF-8 is replaced by U+FFFD.", "quantifier": "every argument set, every rule list, every regex semantics", "why_tests_cant": "All rule lists and orders.", "anchors": ["crates/cli/src/args/encrypt.rs merge_config", "crates/cli/src/config/creation_rule.rs"]}
{"id": "C39", "title": "mac_only_encrypted from the configuration takes effect when the flag is not given", "statement": "If the matching creation rule sets mac_only_encrypted and the command line does not mention it, rops encrypt produces a file with mac_only_encrypted set.", "quantifier": "every rule with the option, every command line without it", "why_tests_cant": "Depends on how the argument parser represents an absent flag; no test covers it.", "anchors": ["crates/cli/src/args/encrypt.rs mac_only_encrypted, merge_config"]}
{"id": "C40", "title": "rops refresh makes the file agree with its creation rule and then is idempotent", "statement": "After a successful refresh the file's recipients and options are those of the first matching rule and the decrypted document is unchanged; refreshing again returns the file unchanged.", "quantifier": "every file, every rule list", "why_tests_cant": "All rules including explicit false options.", "anchors": ["crates/cli/src/cli/refresh.rs", "crates/cli/src/config/creation_rule.rs implies_metadata", "crates/cli/src/integration_keys.rs"]}
{"id": "C41", "title": "The configuration file is looked up in a fixed order", "statement": "The explicit argument wins over ROPS_CONFIG, which wins over the nearest .rops.toml in the working directory or its ancestors; without any of them the default configuration is used.", "quantifier": "every directory depth and every combination of presence", "why_tests_cant": "Unbounded ancestor chains.", "anchors": ["crates/cli/src/config/retrieve.rs"]}
{"id": "C42", "title": "Private keys are collected from the environment variable and then the key file", "statement": "The available private keys are, in order, the comma separated entries of the variable and then the non-blank lines of the key file; a missing variable or file contributes nothing; if any entry is malformed the whole retrieval is an error.", "quantifier": "every variable content, every file content", "why_tests_cant": "All strings, whitespace and empty cases.", "anchors": ["crates/lib/src/integration/core.rs private_keys_from_env, private_keys_from_key_file, retrieve_private_keys"]}
{"id": "C43", "title": "AWS KMS key identifiers survive being written and read", "statement": "Displaying an AWS key id (profile and ARN) and parsing the text gives the same key id.", "quantifier": "every profile name and every ARN the parser can produce", "why_tests_cant": "All profile and ARN strings.", "anchors": ["crates/lib/src/integration/aws_kms/key_id.rs", "crates/lib/src/integration/aws_kms/key_arn.rs"]}
{"id": "C44", "title": "Parsing an AWS key id never aborts the program", "statement": "Parsing arbitrary text as AWS key id or ARN returns a key id or an error.", "quantifier": "every string", "why_tests_cant": "Adversarial strings.", "anchors": ["crates/lib/src/integration/aws_kms/key_arn.rs TryFrom<ResourceName>"]}
{"id": "C45", "title": "Any top-level key can be encrypted", "statement": "A document may use any top-level key, and the encrypted file written for it can be read back and decrypted. (Expected; the key name under which metadata is stored is the counterexample.)", "quantifier": "every document", "why_tests_cant": "Needs the reserved name.", "anchors": ["crates/lib/src/file/core.rs RopsFile serde flatten, sops"]}
{"id": "C46", "title": "TOML documents keep strings and nulls apart", "statement": "A TOML document that passes through encryption and decryption comes back unchanged, and a document decrypted into TOML and re-encrypted still verifies.", "quantifier": "every TOML document and every YAML/JSON document converted to TOML", "why_tests_cant": "Needs the string that denotes null.", "anchors": ["crates/lib/src/file/format/toml/mod.rs"]}
{"id": "C47", "title": "Value order in TOML files survives writing", "statement": "A file encrypted as TOML verifies its MAC after being written to text and read back.", "quantifier": "every TOML document, including tables followed by plain values", "why_tests_cant": "All orders of keys and tables.", "anchors": ["crates/lib/src/file/format/toml/mod.rs", "crates/lib/src/file/metadata/mac/decrypted.rs compute"]}
{"id": "C48", "title": "Converting decrypted content to another format never aborts", "statement": "Decrypting into any of the supported formats returns the document or an error.", "quantifier": "every document, every pair of formats", "why_tests_cant": "All float values.", "anchors": ["crates/lib/src/file/format/json/mod.rs", "crates/lib/src/file/core.rs decrypt"]}
{"id": "C49", "title": "Cancelling or not changing an edit does not write", "statement": "rops edit only writes the file after the editor produced a parseable document; an abandoned edit leaves the file untouched, and an edit session with any number of invalid attempts ends with the last valid document.", "quantifier": "every sequence of editor results", "why_tests_cant": "Unbounded retry sequences.", "anchors": ["crates/cli/src/cli/edit.rs"]}
{"id": "C50", "title": "Encrypting an already encrypted file is harmless or refused", "statement": "Running encrypt on a file that is already encrypted either fails or gives a file from which the data can be recovered.", "quantifier": "every encrypted file", "why_tests_cant": "Histories of two commands.", "anchors": ["crates/cli/src/cli/encrypt.rs", "crates/lib/src/file/builder/core.rs", "crates/lib/src/file/core.rs"]}
{"id": "C51", "title": "The MAC is a fixed-length uppercase hex string that round-trips", "statement": "A computed MAC is 128 upper-case hex digits, is valid text, equals itself after writing and parsing, and the mismatch error names the computed and the stored MAC.", "quantifier": "every document", "why_tests_cant": "All documents.", "anchors": ["crates/lib/src/file/metadata/mac/decrypted.rs Display, FromStr", "crates/lib/src/file/error.rs MacMismatch"]}
{"id": "C52", "title": "Plaintext is rejected where ciphertext is expected", "statement": "When reading an encrypted file, a non-null value in encryption scope that is not well-formed encrypted-value text is an error; it is never accepted as plaintext.", "quantifier": "every document, rule and value", "why_tests_cant": "Downgrade attacks range over all values.", "anchors": ["crates/lib/src/file/format/adapters.rs encrypted_to_internal", "crates/lib/src/file/format/map.rs PlaintextWhenEncrypted"]}
{"id": "C53", "title": "File metadata survives being written and read", "statement": "Recipients with their wrapped keys, timestamp, MAC, rule and options written into the file are read back unchanged.", "quantifier": "every metadata value", "why_tests_cant": "All recipients lists and option combinations.", "anchors": ["crates/lib/src/file/metadata/core.rs serde", "crates/lib/src/file/metadata/integration/units.rs serde", "crates/lib/src/file/metadata/partial_encryption.rs serde"]}
{"id": "C54", "title": "AWS private key text is parsed into its three parts", "statement": "Text profile.id.secret is split into exactly these three parts when none of them contains a dot, text with fewer parts is rejected, and displaying a key gives text that parses to the same key.", "quantifier": "every string", "why_tests_cant": "All strings, in particular secrets containing the separator.", "anchors": ["crates/lib/src/integration/aws_kms/private_key.rs"]}
{"id": "C55", "title": "Sequences of CLI commands preserve the secret document", "statement": "Any sequence of in-place keys add, keys remove, refresh and unchanged edits on an encrypted file leaves a file that decrypts to the same document.", "quantifier": "every finite sequence of commands with arbitrary arguments", "why_tests_cant": "Unbounded histories.", "anchors": ["crates/cli/src/cli/keys.rs", "crates/cli/src/cli/refresh.rs", "crates/cli/src/cli/edit.rs"]}
{"id": "C56", "title": "Editing a file written by another tool never reuses a nonce for a different plaintext", "statement": "When rops edits a file whose plaintexts are spelled differently from its own canonical byte forms (for example the integer text +07), the saved nonce of a value is not used again with a different plaintext.", "quantifier": "every encrypted map that decrypts, whoever wrote it", "why_tests_cant": "Needs an adversarially or foreign written file; the round-trip tests only use files written by rops.", "anchors": ["crates/lib/src/file/map/decrypt.rs:61-72", "crates/lib/src/file/map/encrypt.rs:92-100", "crates/lib/src/file/map/value/core.rs:87-120"]}
{"id": "C57", "title": "A rule in file metadata is applied or refused", "statement": "If the metadata of an encrypted file names a partial encryption rule, reading the file fails or gives a file with that rule.", "quantifier": "every metadata mapping", "why_tests_cant": "Needs malformed or repeated rule entries; the tests only read metadata written by rops.", "anchors": ["crates/lib/src/file/metadata/core.rs flatten", "crates/lib/src/file/metadata/partial_encryption.rs serde"]}
{"id": "C58", "title": "JSON floats survive writing and reading", "statement": "A JSON file with floats left in plaintext verifies its MAC after being written to text and read back.", "quantifier": "every finite 64-bit float", "why_tests_cant": "Only a fraction of the floats is read back inexactly; needs search over all floats.", "anchors": ["crates/lib/src/file/format/json/mod.rs", "crates/lib/Cargo.toml serde_json without float_roundtrip"]}
{"id": "C59", "title": "rops edit leaves no plaintext behind", "statement": "The temporary file with the decrypted document is gone when rops edit ends, whether it succeeds, fails, is cancelled, panics, or is stopped.", "quantifier": "every editor behaviour, every failure of the operating system, every point at which the program stops", "why_tests_cant": "Needs every exit path of the session, including failures and crashes.", "anchors": ["crates/cli/src/cli/edit.rs"]}
{"id": "C60", "title": "Commands report errors instead of aborting", "statement": "Every failing command ends with an error message; none panics.", "quantifier": "every environment, file name and failure of the operating system", "why_tests_cant": "Panics hide behind unusual environments: blank EDITOR, file names that are not UTF-8, closed standard output.", "anchors": ["crates/cli/src/cli/edit.rs", "crates/cli/src/cli/common.rs"]}
{"id": "C61", "title": "rops encrypt then rops decrypt restores the document", "statement": "What rops encrypt writes for a document, rops decrypt turns back into a text that reads as the same document, in place or on standard output.", "quantifier": "every document, recipients, rules, options, configuration and environment with a matching private key", "why_tests_cant": "Combines the command line, configuration, file system, encryption and text layers for arbitrary documents.", "anchors": ["crates/cli/src/cli/encrypt.rs", "crates/cli/src/cli/decrypt.rs", "crates/cli/src/args/encrypt.rs"]}
{"id": "C62", "title": "rops edit stores the edited document", "statement": "After a successful edit the file decrypts to the document the editor left, and the file keeps its recipients and options.", "quantifier": "every file, every editing session, however many attempts it takes", "why_tests_cant": "Needs every sequence of failed and successful attempts.", "anchors": ["crates/cli/src/cli/edit.rs", "crates/lib/src/file/core.rs"]}
{"id": "C63", "title": "rops keys add and keys remove change exactly the recipients", "statement": "keys add makes the recipients the union of the old and the given ones; keys remove the difference, and rotates the data key if any was present; the document stays the same.", "quantifier": "every file, every list of keys", "why_tests_cant": "Duplicate, absent and repeated keys in any combination, over arbitrary files.", "anchors": ["crates/cli/src/cli/keys.rs", "crates/lib/src/file/metadata/integration/core.rs"]}
{"id": "C64", "title": "JSON documents survive being written and read", "statement": "A document that rops writes as JSON is read back as the same document, and the text is valid UTF-8; different documents have different texts.", "quantifier": "every document with string keys nested up to 100 levels, all strings, integers and decimals of up to 15 digits", "why_tests_cant": "Escapes, nesting, number notations and key order combine without bound.", "anchors": ["crates/lib/src/file/format/json/mod.rs", "crates/lib/src/file/format/map.rs", "crates/lib/src/file/core.rs"]}
{"id": "C65", "title": "JSON changes nothing but the last digits of floats", "statement": "Every JSON text that rops writes can be read; what is read differs from the document only in floats, each of the same sign and at most eight units in the last place away.", "quantifier": "every document, every finite binary64 float", "why_tests_cant": "There are 2^64 floats, and the reader rounds up to three times.", "anchors": ["crates/lib/src/file/format/json/mod.rs", "crates/lib/Cargo.toml"]}
{"id": "C66", "title": "Timestamps survive being written and read", "statement": "A timestamp that is printed is read back exactly; whatever is read is an existing date and time; a timestamp with an offset is read as the same instant in UTC.", "quantifier": "every date and time chrono can hold, every offset below a day, every text", "why_tests_cant": "Leap years, leap seconds, five digit years and offsets across month ends are rarely all tested.", "anchors": ["crates/lib/src/file/timestamp.rs", "crates/lib/src/file/metadata/last_modified.rs"]}
{"id": "C67", "title": "JSON files round trip without assumptions about the parser", "statement": "A JSON document encrypted by rops, written as text, read, decrypted, written and read again is the same document.", "quantifier": "every document with decimals of up to 15 digits, every set of recipients, rule, key and nonce", "why_tests_cant": "Combines every layer from the text to the ciphers over arbitrary documents.", "anchors": ["crates/lib/src/file/core.rs", "crates/lib/src/file/format/json/mod.rs", "crates/lib/src/file/format/map.rs"]}
{"id": "C68", "title": "No command locks out the person who runs it, or leaves a file without recipients", "statement": "Every encrypted file a command makes has a recipient. Whoever could open the file and runs a command that rewrites it can still open it afterwards; removing the last recipient whose key is at hand fails and leaves the file as it was.", "quantifier": "every file, set of keys, configuration, environment and command", "why_tests_cant": "Which keys can be removed depends on the private keys available and on all recipients of the file together.", "anchors": ["crates/lib/src/file/metadata/core.rs", "crates/lib/src/file/core.rs", "crates/lib/src/integration/core.rs", "crates/cli/src/run.rs"]}
{"id": "C69", "title": "An encrypted file reveals of its secrets only their types and lengths", "statement": "Two documents with the same keys, nesting, nulls and values outside the scope of the rule, whose values in scope have the same types and byte lengths, are encrypted to files that differ only in the ciphertexts and tags of these values and of the MAC. Encryption succeeds for both or for neither, and draws the same randomness.", "quantifier": "every pair of documents, rule, key, random tape, recipients and clock", "why_tests_cant": "A relation between two executions; a test sees one file at a time and can not exclude that something else depends on a secret.", "anchors": ["crates/lib/src/file/map/encrypt.rs", "crates/lib/src/file/builder/core.rs", "crates/lib/src/file/map/value/core.rs", "crates/lib/src/file/metadata/mac/decrypted.rs"]}
{"id": "C70", "title": "Commands on different files do not disturb each other", "statement": "If no command changes a file that another one looks at or changes (documents, configurations, temporary files), then however the steps of the commands are interleaved, each command that ends has the outcome, output and files it has alone; two schedules in which all end leave the same files; other files stay as they were; and no command waits for another one.", "quantifier": "every set of commands, environments, files, codec and every interleaving", "why_tests_cant": "There are exponentially many interleavings of file operations, and a test runs one of them.", "anchors": ["crates/cli/src/run.rs", "crates/cli/src/cli/common.rs", "crates/cli/src/cli/edit.rs", "crates/cli/src/config/retrieve.rs"]}
{"id": "C71", "title": "Commands on one file at the same time lose neither its document nor each other's changes", "statement": "When several commands that keep the document (keys add, keys remove, refresh, unchanged edits, printing) work on the same encrypted file at the same time, the file still decrypts to the document after they have ended, and every command that reported success has had its effect.", "quantifier": "every set of commands on one file, environments, recipients, documents and every interleaving", "why_tests_cant": "The window between reading and writing is short; a test hits it by chance.", "anchors": ["crates/cli/src/cli/common.rs", "crates/cli/src/cli/keys.rs", "crates/cli/src/cli/refresh.rs", "crates/cli/src/cli/edit.rs"]}
{"id": "C72", "title": "Only who has a private key of a recipient can use an encrypted file", "statement": "A command that shows or changes an encrypted file (decrypt, edit, keys add, keys remove) succeeds only if a private key of a recipient of the file is available; refresh without one at most gives the file back unchanged. Without one these commands fail, print nothing and change no file, whatever else fails. Hence somebody removed as recipient can not use the file any more.", "quantifier": "every command, file, recipients, environment and failure", "why_tests_cant": "That nothing works without a key is a claim about all files and all paths through the commands.", "anchors": ["crates/lib/src/file/core.rs", "crates/lib/src/file/metadata/core.rs", "crates/cli/src/cli/keys.rs", "crates/cli/src/cli/edit.rs"]}
{"id": "C73", "title": "The command line is read as its grammar says", "statement": "A line runs a command exactly if its words spell the options of the command and their values mean it: each option at most once, except keys, in any order and any of its spellings (--name value, --name=value, -n value, -nvalue, -n=value, joined letters, -- before the file). Every acceptable command whose parts can be written can be given. Whatever the line, only files that are words of it are ever changed, apart from the editor's temporary file, and reading the line aborts only at an ill-formed KMS key.", "quantifier": "every list of arguments, every environment and every moment at which the process is stopped", "why_tests_cant": "There are infinitely many lines, and spellings multiply with options.", "anchors": ["crates/cli/src/args/core.rs", "crates/cli/src/args/encrypt.rs", "crates/cli/src/args/input_args.rs", "crates/cli/src/args/misc_args.rs", "crates/cli/src/integration_keys.rs"]}
{"id": "C74", "title": "--age and --aws-kms take lists separated by spaces", "statement": "As the help says, the public keys after --age (and the key ids after --aws-kms) may be a space separated list: all of them become recipients.", "quantifier": "every list of keys", "why_tests_cant": "Tests give one key, for which list and single value agree.", "anchors": ["crates/cli/src/integration_keys.rs"]}
{"id": "C75", "title": "The editor is started as EDITOR says", "statement": "rops edit starts the program and arguments that the variable EDITOR holds, taken apart as a shell does (blanks, single and double quotes, backslashes, comments), followed by the temporary file; without the variable, the first of vim, nano and vi that is found. Every program and list of arguments can be given that way, and no other program is started.", "quantifier": "every value of EDITOR, every surroundings, every command", "why_tests_cant": "Quoting rules have infinitely many texts and interactions; tests try a few words without quotes.", "anchors": ["crates/cli/src/cli/edit.rs"]}
{"id": "C76", "title": "Files are laid out as SOPS lays them out", "statement": "A file is read exactly if it has one entry sops whose entries, under the names SOPS gives them (lastmodified, mac, mac_only_encrypted, kms and age with recipient, aws_profile, arn, created_at and enc, and the four rule names), say what the metadata is; all other entries are the document, and other entries of the metadata are ignored. What is written is laid out the same way, with the document first and no other names.", "quantifier": "every text, every entry list, every metadata, every format", "why_tests_cant": "A test reads one file; a renamed, repeated, null or missing field in another place of another file is not covered.", "anchors": ["crates/lib/src/file/core.rs", "crates/lib/src/file/metadata/core.rs", "crates/lib/src/file/metadata/integration/core.rs", "crates/lib/src/file/metadata/integration/unit.rs", "crates/lib/src/file/metadata/partial_encryption.rs"]}
{"id": "C77", "title": "JSON text is read as RFC 8259 says", "statement": "Whatever the JSON reader accepts is JSON text of an object, and the document is what the text says: every escape, surrogate pair, integer, float, array and object. A text that is not JSON is an error; no text aborts. Every JSON text of an object is accepted whose nesting is at most 127 and whose floats are not at the very end of the range. Integers of 64 bits are exact; other numbers are floats at most eight units in the last place away, and the closest float if they have few digits and a small power of ten.", "quantifier": "every text shorter than a GiB", "why_tests_cant": "The grammar is recursive, and there is no bound on digits, exponents, escapes and white space.", "anchors": ["crates/lib/src/file/format/json/mod.rs", "crates/lib/src/file/format/map.rs", "crates/lib/src/file/core.rs"]}
{"id": "C78", "title": "Repeated keys", "statement": "Of entries of a JSON object with the same name the last value is kept, in the place of the first, at every depth; the others are lost without an error. A YAML or TOML document is taken as it is in the text, or refused if a map has two equal keys.", "quantifier": "every text, every depth", "why_tests_cant": "Repetitions can be anywhere in a nested document, any number of times.", "anchors": ["crates/lib/src/file/format/map.rs", "crates/lib/src/file/format/json/mod.rs", "crates/lib/src/file/format/yaml/mod.rs", "crates/lib/src/file/core.rs"]}
{"id": "C79", "title": "Names in the configuration", "statement": "The configuration file is read exactly if its entries say, under the documented names, which rules there are: creation_rules, and in each path_regex, mac_only_encrypted, partial_encryption and integration_keys with age and aws_kms. An entry with any other name changes nothing, so that a misspelled option is ignored without an error. A rule written as an array is read as the table with its fields under those names in that order, and an array that lacks more than the keys is refused.", "quantifier": "every configuration, every rule, every other name", "why_tests_cant": "Tests read back a configuration that was written by the same names; unbounded other names are never tried.", "anchors": ["crates/cli/src/config/core.rs", "crates/cli/src/config/creation_rule.rs", "crates/cli/src/integration_keys.rs", "crates/lib/src/file/metadata/partial_encryption.rs"]}
{"id": "C80", "title": "Commands that take turns on one file act as one after the other", "statement": "If no command reads a file while another command that has read it is still running, as a lock would ensure, then for every schedule of their steps there is an order in which the commands, run one after the other, have the same outcomes, print the same and leave the same files. In particular no key is lost that was added to a storable file (C55) by commands that take turns: the recipients are those before and those added by every command that reported success, and the document is the same.", "quantifier": "every set of commands on one file and on others, environments, codec and every such schedule", "why_tests_cant": "There are exponentially many interleavings, and an order has to be found for each of them.", "anchors": ["crates/cli/src/run.rs", "crates/cli/src/cli/common.rs", "crates/cli/src/cli/keys.rs", "crates/cli/src/cli/edit.rs", "crates/cli/src/config/retrieve.rs"]}
{"id": "C81", "title": "The exit status says what happened", "statement": "If rops exits with status 0, its arguments named a command and the complete result of that command is in the file, or on standard output, that the command writes, with nothing else touched; or the command was an editing session that the user gave up, and nothing was touched. Otherwise, if no call of the operating system failed, neither a file nor standard output was touched. If no call fails, the status is 0 exactly when there is a result or a session given up. Status 101 has one of the causes of C44 and C60.", "quantifier": "for all arguments, surroundings, file systems and codecs; the first part also when calls fail", "why_tests_cant": "A test sees one run; that a script can rely on the status is a statement about all arguments and all failures.", "anchors": ["crates/cli/src/main.rs:1-3", "crates/cli/src/run.rs:5-16", "crates/cli/src/cli/edit.rs:93-122"]}
{"id": "C82", "title": "What a command does depends only on the file it names and on what the configuration says", "statement": "Files other than the one a command names, the places where a configuration is looked for and the temporary file of an editing session make no difference: in two systems that agree on those, a command has the same outcome, prints the same and leaves the same text, and every file it does not write stays as it is in each. Where the configuration was found makes no difference either: with another working directory, another ROPS_CONFIG or another --config that lead to the same rules, a command does the same.", "quantifier": "for all commands, files, surroundings, configurations, and (for the first part) all failures of input and output", "why_tests_cant": "A test runs in one directory with one set of files; it cannot range over every other file and place.", "anchors": ["crates/cli/src/run.rs:5-16", "crates/cli/src/config/retrieve.rs:11-40", "crates/cli/src/cli/common.rs:12-70", "crates/cli/src/cli/refresh.rs:6-30", "crates/cli/src/cli/edit.rs:29-122"]}
{"id": "C83", "title": "Everyone who opens a file sees the same document", "statement": "Two people who can both decrypt a file are shown the same document. For a file whose entries all wrap one data key this always holds. For any other file, also a forged one, it holds unless every ciphertext of the file and its MAC are authentic under two different data keys and each MAC is the MAC of what the values decrypt to under its key.", "quantifier": "for all files, environments, recipients, formats and commands rops decrypt", "why_tests_cant": "A test has one pair of keys and a file made by the program; it cannot range over forged files.", "anchors": ["crates/lib/src/file/core.rs:131-139", "crates/lib/src/file/metadata/core.rs:47-75", "crates/cli/src/cli/decrypt.rs:6-22"]}
{"id": "C84", "title": "A file can be decrypted in place and encrypted again", "statement": "After rops decrypt --in-place by somebody who can open the file, and rops encrypt --in-place of what that leaves, for whomever and under any rule, the file holds the same document again: everyone named now decrypts it to that document, and all that is proved of files made by rops encrypt holds of it.", "quantifier": "for all histories of the file, documents, recipients, rules, configurations and surroundings; storable documents as in C55; no failing input or output", "why_tests_cant": "A test has one document; that what decryption writes can always be encrypted again depends on every document the formats can hold.", "anchors": ["crates/cli/src/cli/decrypt.rs:6-22", "crates/cli/src/cli/encrypt.rs:6-33", "crates/lib/src/file/format/yaml/mod.rs:59-86", "crates/lib/src/file/format/json/mod.rs:44-67", "crates/lib/src/file/format/toml/mod.rs:49-76"]}
