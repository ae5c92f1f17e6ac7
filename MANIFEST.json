{
 "claims": [
  {
   "property": "C01",
   "status": "proved",
   "theorems": [
    "C01_byte_form_round_trip",
    "C01_reading_respects_type",
    "C01_byte_form_injective"
   ],
   "note": ""
  },
  {
   "property": "C02",
   "status": "proved",
   "theorems": [
    "C02_text_round_trip"
   ],
   "note": ""
  },
  {
   "property": "C03",
   "status": "partial",
   "theorems": [
    "C03_parse_never_aborts_refuted",
    "C03_parse_never_aborts_partial"
   ],
   "note": "False of the code: an iv or tag that is too long aborts in decode_slice; the partial theorem gives exactly when it does not."
  },
  {
   "property": "C04",
   "status": "proved",
   "theorems": [
    "C04_accepted_shape",
    "C04_redisplay"
   ],
   "note": ""
  },
  {
   "property": "C05",
   "status": "proved",
   "theorems": [
    "C05_encrypt_decrypt"
   ],
   "note": ""
  },
  {
   "property": "C06",
   "status": "proved",
   "theorems": [
    "C06_binding",
    "C06_tag_only"
   ],
   "note": ""
  },
  {
   "property": "C07",
   "status": "partial",
   "theorems": [
    "C07_rule_refuted",
    "C07_rule_partial",
    "C07_rule_exact"
   ],
   "note": "False of the code for keys containing a colon; proved for colon-free keys or suffixes, and exactly characterised for all keys."
  },
  {
   "property": "C08",
   "status": "partial",
   "theorems": [
    "C08_agreement_refuted",
    "C08_agreement_partial"
   ],
   "note": "False of the code for keys containing a colon (C07); proved otherwise."
  },
  {
   "property": "C09",
   "status": "proved",
   "theorems": [
    "C09_structure"
   ],
   "note": ""
  },
  {
   "property": "C10",
   "status": "proved",
   "theorems": [
    "C10_round_trip",
    "C10_decrypt_total"
   ],
   "note": ""
  },
  {
   "property": "C11",
   "status": "partial",
   "theorems": [
    "C11_document_round_trip",
    "C11_file_refuted",
    "C11_file_partial",
    "C11_text_partial",
    "C67_json_file_partial"
   ],
   "note": "False of the code for keys/suffixes with a colon; proved for all other documents at the level of the parsed file, and through text for documents outside the counterexamples of C45, C47, C53 and C58 and nested at most 100 deep."
  },
  {
   "property": "C12",
   "status": "partial",
   "theorems": [
    "C12_sound",
    "C12_sound_saving",
    "C12_mismatch",
    "C12_no_abort_refuted",
    "C12_no_abort_nonce_refuted",
    "C12_aborts_partial"
   ],
   "note": "The safety part is proved in full. 'An error in every other case' is false: some files abort; the partial theorem lists all causes."
  },
  {
   "property": "C13",
   "status": "proved",
   "theorems": [
    "C13_tampering",
    "C13_same_mac"
   ],
   "note": ""
  },
  {
   "property": "C14",
   "status": "partial",
   "theorems": [
    "C14_type_refuted",
    "C14_null_refuted",
    "C14_boundary_refuted",
    "C14_path_refuted",
    "C14_values_partial"
   ],
   "note": "False of the code in four ways; the partial theorem says what is protected."
  },
  {
   "property": "C15",
   "status": "proved",
   "theorems": [
    "C15_covered_values",
    "C15_uncovered_irrelevant",
    "C15_option_is_evident"
   ],
   "note": ""
  },
  {
   "property": "C16",
   "status": "proved",
   "theorems": [
    "C16_seconds",
    "C16_time_authenticated"
   ],
   "note": ""
  },
  {
   "property": "C17",
   "status": "proved",
   "theorems": [
    "C17_fresh_draws",
    "C17_built",
    "C17_encrypted"
   ],
   "note": ""
  },
  {
   "property": "C18",
   "status": "proved",
   "theorems": [
    "C18_saved_nonce_use",
    "C18_no_reuse_in_histories"
   ],
   "note": ""
  },
  {
   "property": "C19",
   "status": "partial",
   "theorems": [
    "C19_reuse_refuted",
    "C19_messages_partial"
   ],
   "note": "False of the code for the MAC; proved for values, and the plaintext is the same for the MAC."
  },
  {
   "property": "C20",
   "status": "partial",
   "theorems": [
    "C20_unedited_refuted",
    "C20_unedited_map_partial",
    "C20_unedited_file_refuted",
    "C20_unedited_file_partial"
   ],
   "note": "False of the code for equal values in one sequence; proved for files when equal values at one path have one nonce."
  },
  {
   "property": "C21",
   "status": "proved",
   "theorems": [
    "C21_unchanged_values"
   ],
   "note": ""
  },
  {
   "property": "C22",
   "status": "partial",
   "theorems": [
    "C22_history_refuted",
    "C22_history_partial"
   ],
   "note": "False when saved parameters are used after a removal (C29); proved by invariant for all other histories, under the restrictions of C08, C46, C48 on documents."
  },
  {
   "property": "C23",
   "status": "proved",
   "theorems": [
    "C23_built_recipients",
    "C23_needs_recipient"
   ],
   "note": ""
  },
  {
   "property": "C24",
   "status": "partial",
   "theorems": [
    "C24_any_key_refuted",
    "C24_empty_variable_refuted",
    "C24_age_partial",
    "C24_kms_partial",
    "C24_undamaged_partial"
   ],
   "note": "False of the code: the first entry with a matching private key decides."
  },
  {
   "property": "C25",
   "status": "proved",
   "theorems": [
    "C25_added_age",
    "C25_added_kms",
    "C25_entries_open",
    "C25_locked"
   ],
   "note": ""
  },
  {
   "property": "C26",
   "status": "proved",
   "theorems": [
    "C26_removed_age",
    "C26_removed_kms",
    "C26_next_encryption"
   ],
   "note": ""
  },
  {
   "property": "C27",
   "status": "proved",
   "theorems": [
    "C27_absent_age",
    "C27_absent_kms"
   ],
   "note": ""
  },
  {
   "property": "C28",
   "status": "partial",
   "theorems": [
    "C28_atomic_refuted",
    "C28_age_partial",
    "C28_kms_partial"
   ],
   "note": "False of the code when a rewrap fails; the partial theorems give what is kept."
  },
  {
   "property": "C29",
   "status": "partial",
   "theorems": [
    "C29_rotation_refuted",
    "C29_stale_parameters_partial"
   ],
   "note": "False of the code."
  },
  {
   "property": "C30",
   "status": "partial",
   "theorems": [
    "C30_reorder_refuted",
    "C30_zero_refuted",
    "C30_nan_refuted",
    "C30_set_map_partial"
   ],
   "note": "The MAC part is proved in full; the time part is false for reordered keys, signed zeros and TOML NaN and characterised exactly."
  },
  {
   "property": "C31",
   "status": "proved",
   "theorems": [
    "C31_base64_lossless",
    "C31_base64_canonical",
    "C31_hex"
   ],
   "note": ""
  },
  {
   "property": "C32",
   "status": "proved",
   "theorems": [
    "C32_value_layer",
    "C32_document_integers",
    "C32_document_exact"
   ],
   "note": "Preservation through encryption is C10."
  },
  {
   "property": "C33",
   "status": "proved",
   "theorems": [
    "C33_float_text"
   ],
   "note": ""
  },
  {
   "property": "C34",
   "status": "partial",
   "theorems": [
    "C34_explicit",
    "C34_neither",
    "C34_extension",
    "C34_error_partial",
    "C34_refuted"
   ],
   "note": "Everything proved except that a file name whose extension is not UTF-8 gives the specific error: the code panics there."
  },
  {
   "property": "C35",
   "status": "proved",
   "theorems": [
    "C35_input",
    "C35_in_place",
    "C35_run"
   ],
   "note": "For get_input_string and for whole commands."
  },
  {
   "property": "C36",
   "status": "proved",
   "theorems": [
    "C36_success",
    "C36_failure",
    "C36_untouched",
    "C36_complete"
   ],
   "note": "For every command and every failure; a failing operating system during the final write leaves a beginning of the new text."
  },
  {
   "property": "C37",
   "status": "partial",
   "theorems": [
    "C37_refuted",
    "C37_partial",
    "C37_json_partial"
   ],
   "note": "False of the code: every successful in-place command passes through an empty file. Proved: the file holds the old text or a beginning of the new. For JSON files: a file that can be read after the stop reads as the old or the complete new text."
  },
  {
   "property": "C38",
   "status": "proved",
   "theorems": [
    "C38_merge",
    "C38_file",
    "C38_path",
    "C38_path_text"
   ],
   "note": "For the merged arguments and for the recipients and the rule in the encrypted file."
  },
  {
   "property": "C39",
   "status": "partial",
   "theorems": [
    "C39_refuted",
    "C39_partial"
   ],
   "note": "False of the code for every command line without the flag; proved if the argument were absent instead of false."
  },
  {
   "property": "C40",
   "status": "partial",
   "theorems": [
    "C40_agrees",
    "C40_refresh_partial",
    "C40_refuted",
    "C40_json_partial"
   ],
   "note": "Agreement with the rule is proved for every file. Keeping the document and idempotence are proved for storable documents, recipients and rules; idempotence is false of the code for rules with mac_only_encrypted = false. C40_json_partial: for JSON files with no law assumed of the text format."
  },
  {
   "property": "C41",
   "status": "proved",
   "theorems": [
    "C41_lookup",
    "C41_unique"
   ],
   "note": ""
  },
  {
   "property": "C42",
   "status": "proved",
   "theorems": [
    "C42_age_keys",
    "C42_kms_keys",
    "C42_key_file"
   ],
   "note": "White space is ASCII white space."
  },
  {
   "property": "C43",
   "status": "partial",
   "theorems": [
    "C43_key_id_refuted",
    "C43_key_id_silent_refuted",
    "C43_key_id_partial"
   ],
   "note": "False of the code for ARNs without partition or account; exactly characterised. Behaviour of the aws-arn parser is taken from its documentation."
  },
  {
   "property": "C44",
   "status": "partial",
   "theorems": [
    "C44_no_abort_refuted",
    "C44_no_abort_partial",
    "C44_aborts_exact_partial"
   ],
   "note": "False of the code; exactly the ARNs whose resource is not a key id or path/key id abort."
  },
  {
   "property": "C45",
   "status": "partial",
   "theorems": [
    "C45_sops_unreadable",
    "C45_sops_lost",
    "C45_any_key_refuted",
    "C45_toml_refuted",
    "C45_json_unreadable"
   ],
   "note": "False of the code for the key sops, for every document that has it; every other key is covered by C11_text_partial. C45_json_unreadable: for JSON files with no law assumed of the text format."
  },
  {
   "property": "C46",
   "status": "partial",
   "theorems": [
    "C46_native",
    "C46_conversion_refuted",
    "C46_conversion_partial",
    "C46_file_refuted"
   ],
   "note": "Native TOML documents are kept; a converted document whose strings include \"null\" is not."
  },
  {
   "property": "C47",
   "status": "partial",
   "theorems": [
    "C47_layout_partial",
    "C47_toml_order_refuted"
   ],
   "note": "False of the code for TOML documents with a table before a plain value; otherwise see C11_text_partial."
  },
  {
   "property": "C48",
   "status": "partial",
   "theorems": [
    "C48_conversion_refuted",
    "C48_conversion_partial"
   ],
   "note": "False of the code: NaN and infinities abort the conversion to JSON; that is the only case."
  },
  {
   "property": "C49",
   "status": "proved",
   "theorems": [
    "C49_written",
    "C49_abandoned",
    "C49_last"
   ],
   "note": "The statement; an edit that does not change the document is written all the same."
  },
  {
   "property": "C50",
   "status": "partial",
   "theorems": [
    "C50_again_unreadable",
    "C50_again_refuted",
    "C50_toml_refuted",
    "C50_json_unreadable"
   ],
   "note": "False of the code: encrypting an encrypted file always gives an unreadable YAML or JSON file; in TOML the inner metadata is lost. C50_json_unreadable: for JSON files with no law assumed of the text format."
  },
  {
   "property": "C51",
   "status": "partial",
   "theorems": [
    "C51_mac_text",
    "C51_mac_parse",
    "C51_message_refuted",
    "C51_message_partial"
   ],
   "note": "The MAC text is proved in full; the error message does not name the stored MAC."
  },
  {
   "property": "C52",
   "status": "proved",
   "theorems": [
    "C52_plaintext_rejected",
    "C52_classification"
   ],
   "note": ""
  },
  {
   "property": "C53",
   "status": "partial",
   "theorems": [
    "C53_metadata_partial",
    "C53_metadata_refuted",
    "C53_json_partial"
   ],
   "note": "False of the code for KMS keys whose ARN has no partition or account; proved for all other metadata. C53_json_partial: for JSON files with no law assumed of the text format."
  },
  {
   "property": "C54",
   "status": "proved",
   "theorems": [
    "C54_three_parts",
    "C54_fewer_rejected",
    "C54_round_trip"
   ],
   "note": ""
  },
  {
   "property": "C55",
   "status": "partial",
   "theorems": [
    "C55_partial",
    "C55_refuted",
    "C55_json_partial"
   ],
   "note": "Proved for any number of commands, in any surroundings, succeeding or failing, with storable recipients and rules and no failing writes; false of the code for KMS keys without partition or account. C55_json_partial: the same for JSON files with no law assumed of the text format."
  },
  {
   "property": "C56",
   "status": "partial",
   "theorems": [
    "C56_foreign_plaintext_refuted",
    "C56_foreign_plaintext_partial"
   ],
   "note": "False of the code for integers and floats in a non-canonical spelling; proved for strings and booleans."
  },
  {
   "property": "C57",
   "status": "partial",
   "theorems": [
    "C57_rule_refuted",
    "C57_file_refuted",
    "C57_rule_partial"
   ],
   "note": "False of the code: an invalid regular expression or a second rule is ignored silently."
  },
  {
   "property": "C58",
   "status": "partial",
   "theorems": [
    "C58_float_refuted",
    "C58_plain_floats_partial",
    "C58_json_refuted",
    "C67_json_encrypted_partial"
   ],
   "note": "False of the code for plaintext floats that serde_json reads inexactly; proved if the plaintext floats are read as printed."
  },
  {
   "property": "C59",
   "status": "partial",
   "theorems": [
    "C59_partial",
    "C59_refuted"
   ],
   "note": "Proved for every exit of the program if removing the file succeeds; false if the process is stopped during the session."
  },
  {
   "property": "C60",
   "status": "partial",
   "theorems": [
    "C60_causes_partial",
    "C60_line_partial",
    "C60_json_partial",
    "C60_json_reads",
    "C60_json_prints",
    "C60_editor_refuted",
    "C60_output_refuted",
    "C60_extension_refuted",
    "C34_refuted"
   ],
   "note": "False of the code: EDITOR without a word, unwritable standard output and file names that are not UTF-8 panic.  Proved instead: every abort has one of eleven listed causes.  For JSON files the laws of the codec are proved (C60_json_reads, C60_json_prints), so C60_json_partial assumes them of YAML and TOML only."
  },
  {
   "property": "C61",
   "status": "partial",
   "theorems": [
    "C61_encrypt_partial",
    "C61_decrypt_partial",
    "C61_json_partial"
   ],
   "note": "For storable documents, recipients and rules (see C08, C43, C45, C48, C57, C58 for the others). C61_json_partial: for JSON with no law assumed of the text format."
  },
  {
   "property": "C62",
   "status": "partial",
   "theorems": [
    "C62_partial",
    "C62_json_partial"
   ],
   "note": "For storable documents; see C61. C62_json_partial: for JSON with no law assumed of the text format."
  },
  {
   "property": "C63",
   "status": "partial",
   "theorems": [
    "C63_add_partial",
    "C63_remove_partial",
    "C63_json_add_partial",
    "C63_json_remove_partial"
   ],
   "note": "For storable documents and recipients; see C61. The _json_ theorems: for JSON with no law assumed of the text format."
  },
  {
   "property": "C64",
   "status": "proved",
   "theorems": [
    "C64_json_text",
    "C64_json_injective",
    "C64_json_cut"
   ],
   "note": "serde_json's writer and reader modelled concretely (Model/Json.v); no assumption about the codec."
  },
  {
   "property": "C65",
   "status": "proved",
   "theorems": [
    "C65_json_floats"
   ],
   "note": "All finite floats; floats of up to 15 digits are kept exactly (sizes in short_decimal). The witness shows a float that changes."
  },
  {
   "property": "C66",
   "status": "proved",
   "theorems": [
    "C66_times",
    "C66_real",
    "C66_offsets"
   ],
   "note": "chrono's relaxed RFC 3339 reader modelled concretely (Model/Chrono.v)."
  },
  {
   "property": "C67",
   "status": "partial",
   "theorems": [
    "C67_json_file_partial",
    "C67_json_encrypted_partial"
   ],
   "note": "C11 for JSON with no assumption about the codec; documents as in C11 (no key sops, depth, strings that survive colons). Floats must be short decimals unless encrypted (C58)."
  },
  {
   "property": "C68",
   "status": "partial",
   "theorems": [
    "C68_open_partial",
    "C68_named",
    "C68_recipients",
    "C68_last",
    "C68_refresh_refuted"
   ],
   "note": "False of refresh: a configuration that no longer names the user locks them out. Proved for keys add, keys remove and edit; of encrypt and refresh, that exactly those named can open the file."
  },
  {
   "property": "C69",
   "status": "proved",
   "theorems": [
    "C69_map",
    "C69_file",
    "C69_booleans_refuted"
   ],
   "note": "Fresh encryption (no saved nonces). C69_booleans_refuted records a consequence: the length shows which boolean is encrypted. For re-encryption with saved nonces see C20 and C21."
  },
  {
   "property": "C70",
   "status": "proved",
   "theorems": [
    "C70_alone",
    "C70_others",
    "C70_schedules",
    "C70_ends"
   ],
   "note": "Looking at a file, emptying it and writing a text are single steps. Commands draw from different places of one random stream."
  },
  {
   "property": "C71",
   "status": "partial",
   "theorems": [
    "C71_document_partial",
    "C71_lost_refuted",
    "C71_torn_refuted"
   ],
   "note": "Both parts are false: commands do not lock the file. Two that read it before one writes lose a change (C71_lost_refuted); overlapping writes leave a text that is neither (C71_torn_refuted). Proved: the document survives every schedule in which nothing happens between a command's emptying and writing the file."
  },
  {
   "property": "C72",
   "status": "partial",
   "theorems": [
    "C72_needs_key",
    "C72_locked_out",
    "C72_removed_partial",
    "C72_json_removed_partial"
   ],
   "note": "Proved for every codec, except the last sentence: that the file after keys remove reads back with the remaining recipients needs the codec law and the documents of C55 (none for JSON). Of KMS keys the profile must be available. What an attacker without rops can do is not modelled."
  },
  {
   "property": "C73",
   "status": "proved",
   "theorems": [
    "C73_grammar",
    "C73_order",
    "C73_every",
    "C73_crash",
    "C73_changes"
   ],
   "note": "What clap derives from the attributes is modelled from knowledge of clap 4. Printing help and reporting an error are one reply."
  },
  {
   "property": "C74",
   "status": "partial",
   "theorems": [
    "C74_partial",
    "C74_second_refuted",
    "C74_more_refuted"
   ],
   "note": "False of the code: each --age takes one value. The second key is taken for the file (C74_second_refuted), a third word is refused (C74_more_refuted). Proved: keys given with one option each are all taken, in order."
  },
  {
   "property": "C75",
   "status": "proved",
   "theorems": [
    "C75_started",
    "C75_selected",
    "C75_words",
    "C75_one_reading",
    "C75_every",
    "C75_aborts"
   ],
   "note": "Expansions ($X, ~, globs) are not part of the grammar, as the code does none. A value without a word aborts the program (C75_aborts, C60)."
  },
  {
   "property": "C76",
   "status": "proved",
   "theorems": [
    "C76_read",
    "C76_accepts",
    "C76_written",
    "C76_null"
   ],
   "note": "Recipients are told up to their order: of several entries for one recipient the last counts. An integration listed as null is refused (C76_null), although SOPS lists integrations without recipients that way. Entries of the document with YAML tags or keys that are not scalars are a hypothesis of C76_accepts. That the text has these entries is up to the codec (C47, C53)."
  },
  {
   "property": "C77",
   "status": "proved",
   "theorems": [
    "C77_read",
    "C77_accepts",
    "C77_exact",
    "C77_one_meaning",
    "C77_total",
    "C77_refused"
   ],
   "note": "The grammar in Spec/SpecJsonText.v is written from RFC 8259 and does not use the reader. Witnesses: C77_read_witness, C77_accepts_witness, C77_refused_witness."
  },
  {
   "property": "C78",
   "status": "proved",
   "theorems": [
    "C78_json",
    "C78_others"
   ],
   "note": "C78_json_witness shows an entry of a text that is in no part of the document."
  },
  {
   "property": "C79",
   "status": "proved",
   "theorems": [
    "C79_read",
    "C79_other_names",
    "C79_other_keys",
    "C79_array",
    "C79_array_short"
   ],
   "note": "Rules and keys as tables or as arrays; the TOML text is a parameter."
  },
  {
   "property": "C80",
   "status": "proved",
   "theorems": [
    "C80_serial",
    "C80_added",
    "C80_json_added"
   ],
   "note": "The code does not lock files; without taking turns the claim is false (C71). C80_json_added: for JSON files with no law assumed of the text format."
  },
  {
   "property": "C81",
   "status": "proved",
   "theorems": [
    "C81_zero",
    "C81_other",
    "C81_iff",
    "C81_abort",
    "C81_json_abort",
    "C81_extension_aborts"
   ],
   "note": "Help and usage errors of clap are one outcome (0 or 2) in which nothing is run. An editing session given up ends with status 0. C81_json_abort assumes nothing of the JSON parser and printer."
  },
  {
   "property": "C82",
   "status": "proved",
   "theorems": [
    "C82_depends",
    "C82_place"
   ],
   "note": "The second part is for runs without failures of input or output, and for a configuration that can be read; otherwise every command ends with an error (C41)."
  },
  {
   "property": "C83",
   "status": "proved",
   "theorems": [
    "C83_view",
    "C83_honest",
    "C83_commands"
   ],
   "note": "The coincidence is stated, not excluded: AES-GCM does not commit to its key, and cryptographic strength is not modelled."
  },
  {
   "property": "C84",
   "status": "partial",
   "theorems": [
    "C84_partial",
    "C84_json_partial"
   ],
   "note": "For storable documents, recipients and rules; see C55. C84_json_partial: for JSON with no law assumed of the text format."
  }
 ]
}
