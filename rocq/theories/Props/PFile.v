(** Properties of whole files: C11, C12, C13, C14, C16, C17, C19, C20, C22, C30, C46, C51. *)
From Verif.Model Require Import File.
From Verif.Spec Require Import SpecFile SpecFileHistory.
From Verif.Proofs Require Import BytesFacts Base64Facts Utf8Facts ValueFacts MapFacts FormatFacts TimestampFacts IntegrationFacts FileFacts FileSafety FileKeys.
From Verif.Props Require Import PMap PFormat ExWorld PIntegration.

Local Open Scope nat_scope.

(** * C11 *)

(** The full statement is [C11_file_partial] without the hypothesis on colons.  It is false of the code: a rule whose suffix contains
    a colon makes a file that is built without error but is never decrypted (see C07, C08). *)
Definition colon_doc : fmap := [(FStr (lit "db:secret"), FStr (lit "hunter2"))].
Definition colon_ef : efile := Eval vm_compute in build_doc Yaml (Some (EncryptedSuffix (lit ":secret"))) colon_doc.
Theorem C11_file_refuted : exists re tp ag W E E' f b n ef n', age_law ag /\ kms_law W /\ W E /\ W E' /\ fmt_doc f (bd_map b)
  /\ builder_encrypt re tp ag E f b n = Ok (ef, n') /\ can_open ag E' (md_recipients (fl_meta ef)) /\ exists e, file_decrypt re ag E' f f ef = Err e.
Proof.
  exists ex_re, ex_tape, toy_age, toy_world, ex_here, ex_at_bob, Yaml.
  exists {| bd_map := colon_doc; bd_partial := Some (EncryptedSuffix (lit ":secret")); bd_only := None; bd_age := [toy_public ex_alice; toy_public ex_bob]; bd_kms := [] |}, 0, colon_ef, 5.
  split; [exact toy_age_law|]. split; [exact toy_kms_law|]. split; [apply ex_env_world|]. split; [apply ex_env_world|]. split; [doc_ok|]. split; [by_vm|].
  split; [apply open_age with (ids := [ex_bob]) (i := ex_bob); [reflexivity|now left|vm_compute; tauto]|]. eexists. vm_compute. reflexivity.
Qed.
Print Assumptions C11_file_refuted.

(** Every file built from a document decrypts to that document (tags and dates normalised), with its options and its MAC, wherever
    one of its recipients can open it.  Missing: keys with colons that interfere with the rule; the text of the file (see Document). *)
Theorem C11_file_partial : forall re tp ag W E E' f b n ef n' dm, age_law ag -> kms_law W -> W E -> W E' ->
  fmt_doc f (bd_map b) -> dec_map_to_internal f (bd_map b) = Ok dm -> colon_safe_map (bd_partial b) dm ->
  builder_encrypt re tp ag E f b n = Ok (ef, n') -> can_open ag E' (md_recipients (fl_meta ef)) ->
  exists df, file_decrypt re ag E' f f ef = Ok df /\ fl_map df = normal_doc (bd_map b)
    /\ md_partial (fl_meta df) = bd_partial b /\ md_only (fl_meta df) = bd_only b /\ mac_of re (bd_only b) (bd_partial b) dm (md_mac (fl_meta df)).
Proof. intros. apply built_decrypts with (tp := tp) (W := W) (E := E) (n := n) (n' := n'); auto. Qed.
Print Assumptions C11_file_partial.

Example C11_file_witness : fmt_doc Yaml (bd_map ex_builder) /\ builder_encrypt ex_re ex_tape toy_age ex_here Yaml ex_builder 0 = Ok (ex_ef, 12)
  /\ can_open toy_age ex_at_bob (md_recipients (fl_meta ex_ef)) /\ can_open toy_age ex_at_kms (md_recipients (fl_meta ex_ef))
  /\ omap fl_map (file_decrypt ex_re toy_age ex_at_kms Yaml Yaml ex_ef) = Ok (normal_doc ex_doc) /\ fl_map ex_ef <> ex_doc.
Proof.
  split; [apply ex_doc_ok|]. split; [exact ex_built|]. split. { apply open_age with (ids := [ex_bob]) (i := ex_bob); [reflexivity|now left|vm_compute; tauto]. }
  split.
  { eapply open_kms with (ids := []) (a := []) (b := []).
    - reflexivity.
    - intros i [].
    - reflexivity.
    - vm_compute. reflexivity.
    - intros v c' [].
    - now left.
    - reflexivity.
    - intros req blob R K B H. apply (f_equal decode_base64_vec) in B. rewrite decode_encode_vec in B. vm_compute in B. injection B as <-. cbn in K, H. unfold toy_kms_decrypt in H. rewrite K in H. vm_compute in H. discriminate H. }
  split; [by_vm|]. intro H. vm_compute in H. discriminate.
Qed.

(** * C12 *)

(** Whenever a document is returned: the stored MAC is authentic together with the last-modified time, and it is the MAC of that
    document under the settings of the file. *)
Theorem C12_sound : forall re ag E f fo ef df, file_decrypt re ag E f fo ef = Ok df ->
  exists dm, content re ag E f ef dm /\ authentic_mac ag E ef (md_mac (fl_meta df))
    /\ mac_of re (md_only (fl_meta ef)) (md_partial (fl_meta ef)) dm (md_mac (fl_meta df))
    /\ dec_map_from_internal fo dm = Ok (fl_map df)
    /\ md_partial (fl_meta df) = md_partial (fl_meta ef) /\ md_only (fl_meta df) = md_only (fl_meta ef)
    /\ md_modified (fl_meta df) = md_modified (fl_meta ef) /\ md_recipients (fl_meta df) = md_recipients (fl_meta ef).
Proof. exact decrypt_sound. Qed.
Print Assumptions C12_sound.

(** Decryption that saves parameters returns the same document, or none. *)
Theorem C12_sound_saving : forall re ag E f fo ef df, (exists sv, file_decrypt_save re ag E f fo ef = Ok (df, sv)) <-> file_decrypt re ag E f fo ef = Ok df.
Proof.
  intros. split.
  - intros (sv & H). now apply decrypt_save_inv in H.
  - apply decrypt_save_of_decrypt.
Qed.
Print Assumptions C12_sound_saving.

(** If the stored MAC is not the MAC of the content, no document is returned. *)
Theorem C12_mismatch : forall re ag E f fo ef dm mac, content re ag E f ef dm -> authentic_mac ag E ef mac ->
  ~ mac_of re (md_only (fl_meta ef)) (md_partial (fl_meta ef)) dm mac ->
  (utf8_text mac -> file_decrypt re ag E f fo ef = Err EMacMismatch) /\ forall df, file_decrypt re ag E f fo ef <> Ok df.
Proof.
  intros re ag E f fo ef dm mac C A N. pose proof (decrypt_mismatch re ag E f fo ef dm mac C A N) as H. split.
  - intro U. apply utf8_valid_iff in U. now rewrite U in H.
  - intros df Q. rewrite Q in H. destruct (utf8_valid mac); discriminate.
Qed.
Print Assumptions C12_mismatch.

(** The full statement also has an error, not an abort, in every other case: [file_decrypt re ag E f fo ef <> Panic].  That is false:
    a stored MAC that is authentic but not UTF-8 aborts in the error message (decrypted.rs, Display), an encrypted value with an over-long
    nonce aborts (C03), and NaN aborts in JSON (C48). *)
Definition small_key : bytes := draw_key ex_tape 0.
Definition with_stored_mac (ef : efile) (mac : bytes) : efile :=
  {| fl_map := fl_map ef; fl_meta := with_mac (fl_meta ef) (fst (get (no_evalue, 0) (encrypt_mac ex_tape None mac small_key (timestamp_text (md_modified (fl_meta ef))) 99))) |}.
Definition garbled_ef : efile := Eval vm_compute in with_stored_mac small_ef [xff].
Definition wrong_mac_ef : efile := Eval vm_compute in with_stored_mac small_ef (lit "AB").
Theorem C12_no_abort_refuted : exists re ag E f ef mac, age_law ag /\ fmt_doc f (fl_map ef) /\ authentic_mac ag E ef mac /\ file_decrypt re ag E f f ef = Panic.
Proof.
  exists ex_re, toy_age, ex_here, Yaml, garbled_ef, [xff]. split; [exact toy_age_law|]. split.
  { assert (Q : match fl_map garbled_ef with [(FStr a, FStr s); (FStr b, FStr t)] => bytes_eqb a (lit "a") && bytes_eqb b (lit "b") && utf8_valid s && utf8_valid t | _ => false end = true) by by_vm.
    revert Q. generalize (fl_map garbled_ef) as fm. intros fm Q. destruct fm as [|[[| |a| | | | |] [| |s| | | | |]] [|[[| |b| | | | |] [| |t| | | | |]] [|? ?]]]; try discriminate Q.
    rewrite !andb_true_iff, !bytes_eqb_eq in Q. destruct Q as (((-> & ->) & U) & V). apply utf8_lit in U. apply utf8_lit in V. doc_ok. }
  split; [|by_vm]. exists small_key. split; by_vm.
Qed.
Print Assumptions C12_no_abort_refuted.
Theorem C12_no_abort_nonce_refuted : exists re ag E f ef, age_law ag /\ fmt_doc f (fl_map ef) /\ file_decrypt re ag E f f ef = Panic.
Proof.
  exists ex_re, toy_age, ex_here, Yaml, (with_map small_ef [(FStr (lit "a"), FStr (lit "ENC[AES256_GCM,data:QQ==,iv:AAAAAAAAAAAAAAAAAAAAAAAAAAAAAAAAAAAAAAAAAAAAAAAA,tag:AAAAAAAAAAAAAAAAAAAAAA==,type:str]"))]).
  split; [exact toy_age_law|]. split; [doc_ok|]. by_vm.
Qed.
Print Assumptions C12_no_abort_nonce_refuted.

(** All the ways in which decryption can abort: a passphrase-encrypted age entry, a KMS answer without plaintext, the malformed values of C03,
    a stored authentic MAC that is not UTF-8, and NaN or infinity when writing JSON. *)
Theorem C12_aborts_partial : forall re ag E f fo ef, fmt_doc f (fl_map ef) -> file_decrypt re ag E f fo ef = Panic ->
  (exists i u, In u (rc_age (md_recipients (fl_meta ef))) /\ ag_open ag i (u_enc u) = AgePassphrase)
  \/ (exists req b, e_kms_decrypt E req b = KmsEmpty)
  \/ (exists ks s, at_path (FMap (fl_map ef)) ks (FStr s) /\ parse_evalue s = Panic)
  \/ (exists mac, authentic_mac ag E ef mac /\ ~ utf8_text mac)
  \/ (fo = Json /\ exists dm ks v, content re ag E f ef dm /\ In (ks, v) (map_values dm) /\ non_finite v).
Proof. exact decrypt_panic. Qed.
Print Assumptions C12_aborts_partial.

Example C12_witness : file_decrypt ex_re toy_age ex_here Yaml Yaml ex_ef = Ok ex_df
  /\ content ex_re toy_age ex_here Yaml wrong_mac_ef [(lit "a", Leaf (VStr (lit "x"))); (lit "b", Leaf (VInt 5))]
  /\ authentic_mac toy_age ex_here wrong_mac_ef (lit "AB")
  /\ file_decrypt ex_re toy_age ex_here Yaml Yaml wrong_mac_ef = Err EMacMismatch.
Proof.
  split; [exact ex_opened|]. split. { exists small_key, (read_enc Yaml small_ef). split; [by_vm|]. split; by_vm. }
  split; [|by_vm]. exists small_key. split; by_vm.
Qed.

(** * C13 *)

(** Two files with the same stored MAC that both decrypt: the byte forms of their covered values, concatenated in document order, are
    equal, or the two concatenations are a SHA-512 collision. *)
Theorem C13_tampering : forall re ag E E' f f' fo fo' ef ef' df df' key, file_decrypt re ag E f fo ef = Ok df -> file_decrypt re ag E' f' fo' ef' = Ok df' ->
  retrieve_data_key ag E (md_recipients (fl_meta ef)) = Ok key -> retrieve_data_key ag E' (md_recipients (fl_meta ef')) = Ok key ->
  ev_data (md_mac (fl_meta ef)) = ev_data (md_mac (fl_meta ef')) -> ev_nonce (md_mac (fl_meta ef)) = ev_nonce (md_mac (fl_meta ef')) ->
  exists dm dm' vs vs', content re ag E f ef dm /\ content re ag E' f' ef' dm'
    /\ kept (covered re (match md_only (fl_meta ef) with Some true => true | _ => false end) (md_partial (fl_meta ef))) (map_values dm) vs
    /\ kept (covered re (match md_only (fl_meta ef') with Some true => true | _ => false end) (md_partial (fl_meta ef'))) (map_values dm') vs'
    /\ (hashed (md_only (fl_meta ef)) vs = hashed (md_only (fl_meta ef')) vs'
        \/ (hashed (md_only (fl_meta ef)) vs <> hashed (md_only (fl_meta ef')) vs'
            /\ sha512 (hashed (md_only (fl_meta ef)) vs) = sha512 (hashed (md_only (fl_meta ef')) vs'))).
Proof. intros. eapply two_files; eauto. eapply same_stored_mac; eauto. Qed.
Print Assumptions C13_tampering.

(** The same for two files whose MACs decrypt to the same text, however they were encrypted. *)
Theorem C13_same_mac : forall re ag E E' f f' fo fo' ef ef' df df', file_decrypt re ag E f fo ef = Ok df -> file_decrypt re ag E' f' fo' ef' = Ok df' ->
  md_mac (fl_meta df) = md_mac (fl_meta df') ->
  exists dm dm' vs vs', content re ag E f ef dm /\ content re ag E' f' ef' dm'
    /\ kept (covered re (match md_only (fl_meta ef) with Some true => true | _ => false end) (md_partial (fl_meta ef))) (map_values dm) vs
    /\ kept (covered re (match md_only (fl_meta ef') with Some true => true | _ => false end) (md_partial (fl_meta ef'))) (map_values dm') vs'
    /\ (hashed (md_only (fl_meta ef)) vs = hashed (md_only (fl_meta ef')) vs'
        \/ (hashed (md_only (fl_meta ef)) vs <> hashed (md_only (fl_meta ef')) vs'
            /\ sha512 (hashed (md_only (fl_meta ef)) vs) = sha512 (hashed (md_only (fl_meta ef')) vs'))).
Proof. exact two_files. Qed.
Print Assumptions C13_same_mac.

(** Two values exchanged under their keys, one value deleted: both are noticed (the documents leave the values in plaintext). *)
Definition public_rule : option partial := Some (EncryptedSuffix (lit "_secret")).
Definition public_doc : fmap := [(FStr (lit "a"), FStr (lit "x")); (FStr (lit "b"), FStr (lit "yz"))].
Definition public_ef : efile := Eval vm_compute in build_doc Yaml public_rule public_doc.
Example C13_witness : omap fl_map (file_decrypt ex_re toy_age ex_here Yaml Yaml public_ef) = Ok public_doc
  /\ file_decrypt ex_re toy_age ex_here Yaml Yaml (with_map public_ef [(FStr (lit "a"), FStr (lit "yz")); (FStr (lit "b"), FStr (lit "x"))]) = Err EMacMismatch
  /\ file_decrypt ex_re toy_age ex_here Yaml Yaml (with_map public_ef [(FStr (lit "a"), FStr (lit "x"))]) = Err EMacMismatch
  /\ omap fl_map (file_decrypt ex_re toy_age ex_here Yaml Yaml (with_map public_ef [(FStr (lit "c"), FStr (lit "x")); (FStr (lit "b"), FStr (lit "yz"))]))
     = Ok [(FStr (lit "c"), FStr (lit "x")); (FStr (lit "b"), FStr (lit "yz"))].
Proof. split; [by_vm|]. split; [by_vm|]. split; by_vm. Qed.

(** * C14 *)

(** The full statement is: if a file and a version of it with another encrypted document both decrypt, and nothing was forged
    ([no_forgery]), then the decrypted documents are equal.  It is false in several ways. *)
Definition undetected (f : fmt) (ef : efile) (m' : fmap) (doc doc' : fmap) : Prop :=
  exists em em', omap fl_map (file_decrypt ex_re toy_age ex_here f f ef) = Ok doc /\ omap fl_map (file_decrypt ex_re toy_age ex_here f f (with_map ef m')) = Ok doc'
  /\ enc_map_to_internal ex_re f (md_partial (fl_meta ef)) (fl_map ef) = Ok em /\ enc_map_to_internal ex_re f (md_partial (fl_meta ef)) m' = Ok em' /\ no_forgery em em'
  /\ doc <> doc'.
Lemma undetected_by : forall f ef m' doc doc',
  omap fl_map (file_decrypt ex_re toy_age ex_here f f ef) = Ok doc -> omap fl_map (file_decrypt ex_re toy_age ex_here f f (with_map ef m')) = Ok doc' ->
  forall em em', enc_map_to_internal ex_re f (md_partial (fl_meta ef)) (fl_map ef) = Ok em -> enc_map_to_internal ex_re f (md_partial (fl_meta ef)) m' = Ok em' ->
  no_forgery_b em em' = true -> doc <> doc' -> undetected f ef m' doc doc'.
Proof. intros f ef m' doc doc' A B em em' C D F N. exists em, em'. pose proof (no_forgery_by em em' F). auto 8. Qed.

(** The type of an encrypted value is not authenticated: the string "5" becomes the integer 5. *)
Definition digit_ef : efile := Eval vm_compute in build_doc Yaml None [(FStr (lit "port"), FStr (lit "5"))].
Definition retyped : emap := Eval vm_compute in
  map (fun kt => (fst kt, match snd kt with Leaf (Encrypted e) => Leaf (Encrypted {| ev_data := ev_data e; ev_nonce := ev_nonce e; ev_tag := ev_tag e; ev_type := TyInt |}) | t => t end)) (read_enc Yaml digit_ef).
Theorem C14_type_refuted : exists f ef m', undetected f ef m' [(FStr (lit "port"), FStr (lit "5"))] [(FStr (lit "port"), FNum (NInt 5))].
Proof.
  exists Yaml, digit_ef, (write_enc Yaml retyped). apply undetected_by with (em := read_enc Yaml digit_ef) (em' := retyped); try by_vm. discriminate.
Qed.
Print Assumptions C14_type_refuted.

(** Nulls can be added (and removed) anywhere, keys included. *)
Theorem C14_null_refuted : exists f ef m', undetected f ef m' small_doc (small_doc ++ [(FStr (lit "admin"), FSeq [FNull])]).
Proof.
  exists Yaml, small_ef, (fl_map small_ef ++ [(FStr (lit "admin"), FSeq [FNull])]).
  apply undetected_by with (em := read_enc Yaml small_ef) (em' := read_enc Yaml small_ef ++ [(lit "admin", Seq [Null])]); try by_vm. discriminate.
Qed.
Print Assumptions C14_null_refuted.

(** The keys of unencrypted values and the boundaries between them are not authenticated. *)
Theorem C14_boundary_refuted : exists f ef m',
  undetected f ef m' public_doc [(FStr (lit "user"), FStr (lit "xy")); (FStr (lit "is"), FStr (lit "z"))].
Proof.
  exists Yaml, public_ef, [(FStr (lit "user"), FStr (lit "xy")); (FStr (lit "is"), FStr (lit "z"))].
  apply undetected_by with (em := read_enc Yaml public_ef) (em' := [(lit "user", Leaf (Escaped (VStr (lit "xy")))); (lit "is", Leaf (Escaped (VStr (lit "z"))))]); try by_vm. discriminate.
Qed.
Print Assumptions C14_boundary_refuted.

(** The associated data of a value under "a:b" and of one under "b" inside "a" are the same. *)
Definition nested_ef : efile := Eval vm_compute in build_doc Yaml None [(FStr (lit "a"), FMap [(FStr (lit "b"), FStr (lit "v"))])].
Definition flattened : emap := Eval vm_compute in match read_enc Yaml nested_ef with [(_, Map [(_, t)])] => [(lit "a:b", t)] | _ => [] end.
Theorem C14_path_refuted : exists f ef m',
  undetected f ef m' [(FStr (lit "a"), FMap [(FStr (lit "b"), FStr (lit "v"))])] [(FStr (lit "a:b"), FStr (lit "v"))].
Proof.
  exists Yaml, nested_ef, (write_enc Yaml flattened). apply undetected_by with (em := read_enc Yaml nested_ef) (em' := flattened); try by_vm. discriminate.
Qed.
Print Assumptions C14_path_refuted.

(** What does hold: without forgery every decrypted value stems from an original value with the same joined path, which is the same path if no key
    contains a colon; it has the same byte form, and is the same value if it has the same type. *)
Theorem C14_values_partial : forall key em dm em' dm', rust_map dm -> encrypted_under key em dm -> decrypt_map key em' = Ok dm' -> no_forgery em em' ->
  forall i ks e' v', pair_at em' dm' i ks e' v' ->
  exists j ks0 v, value_at dm j ks0 v /\ path_text ks0 = path_text ks /\ (Forall no_colon ks -> Forall no_colon ks0 -> ks0 = ks)
    /\ value_from_bytes (value_bytes v) (type_of v') = Ok v' /\ (type_of v = type_of v' -> v = v').
Proof. exact tampered_values. Qed.
Print Assumptions C14_values_partial.
Example C14_witness : no_forgery (read_enc Yaml digit_ef) retyped /\ decrypt_map small_key retyped = Ok [(lit "port", Leaf (VInt 5))]
  /\ exists e, pair_at retyped [(lit "port", Leaf (VInt 5))] 0 [lit "port"] e (VInt 5).
Proof. split; [apply no_forgery_by; by_vm|]. split; [by_vm|]. eexists. split; [vm_compute; reflexivity|reflexivity]. Qed.

(** * C16 *)

(** Two times have the same associated data iff they are in the same second. *)
Theorem C16_seconds : forall t t', valid_timestamp t = true -> valid_timestamp t' = true ->
  (timestamp_text t = timestamp_text t' <-> same_second t t').
Proof. exact timestamp_text_second. Qed.
Print Assumptions C16_seconds.

(** A file that still decrypts after its time was changed by a second or more has a tag that is valid for two associated data. *)
Theorem C16_time_authenticated : forall re ag E f fo ef df t df', file_decrypt re ag E f fo ef = Ok df -> file_decrypt re ag E f fo (with_modified ef t) = Ok df' ->
  valid_timestamp t = true -> valid_timestamp (md_modified (fl_meta ef)) = true -> ~ same_second t (md_modified (fl_meta ef)) ->
  exists key aad aad' nonce data, aad <> aad' /\ gcm_tag key nonce aad data = ev_tag (md_mac (fl_meta ef)) /\ gcm_tag key nonce aad' data = ev_tag (md_mac (fl_meta ef))
    /\ nonce = ev_nonce (md_mac (fl_meta ef)) /\ data = ev_data (md_mac (fl_meta ef)) /\ retrieve_data_key ag E (md_recipients (fl_meta ef)) = Ok key.
Proof.
  intros re ag E f fo ef df t df' H H' V V' N. destruct (timestamp_bound _ _ _ _ _ _ _ _ _ H H') as (key & K & T & T').
  exists key, (timestamp_text (md_modified (fl_meta ef))), (timestamp_text t), (ev_nonce (md_mac (fl_meta ef))), (ev_data (md_mac (fl_meta ef))).
  split; auto. intro Q. apply N. apply C16_seconds; auto.
Qed.
Print Assumptions C16_time_authenticated.

(** The written time is a whole second; another second is rejected, another fraction of the same second is not. *)
Example C16_witness : valid_timestamp ex_time = true /\ valid_timestamp ex_later = true /\ ~ same_second ex_later (md_modified (fl_meta small_ef))
  /\ timestamp_text ex_time = lit "2024-11-05T08:30:59Z" /\ md_modified (fl_meta small_ef) = whole_second ex_time
  /\ file_decrypt ex_re toy_age ex_here Yaml Yaml (with_modified small_ef ex_later) = Err ECipher
  /\ omap fl_map (file_decrypt ex_re toy_age ex_here Yaml Yaml (with_modified small_ef ex_time)) = Ok small_doc.
Proof.
  split; [reflexivity|]. split; [reflexivity|]. split. { replace (md_modified (fl_meta small_ef)) with (whole_second ex_time) by by_vm. intros (_ & _ & H & _). discriminate H. }
  split; [by_vm|]. split; [by_vm|]. split; by_vm.
Qed.

(** * C17 *)

(** A built file uses separate draws for the data key, each encrypted value and the MAC; if the draws of the operation differ, so do
    all its nonces. *)
Theorem C17_built : forall re tp ag E f b n ef n', builder_encrypt re tp ag E f b n = Ok (ef, n') ->
  exists em k j, enc_map_from_internal f em = Ok (fl_map ef) /\ nonces_of em = map (draw_nonce tp) (seq (S n) k)
    /\ ev_nonce (md_mac (fl_meta ef)) = draw_nonce tp j /\ S n + k <= j < n'
    /\ ((forall x y, n < x < n' -> n < y < n' -> draw_nonce tp x = draw_nonce tp y -> x = y) -> NoDup (ev_nonce (md_mac (fl_meta ef)) :: nonces_of em)).
Proof.
  intros re tp ag E f b n ef n' H. apply fresh_built in H. destruct H as (em & k & j & A & B & C & D). exists em, k, j. split; auto. split; auto. split; auto. split; auto.
  intro X. rewrite B, C. apply draws_differ; [|lia]. intros x y I J. apply X; lia.
Qed.
Print Assumptions C17_built.

(** The same for encrypting a decrypted file without saved parameters (after a removal, for instance). *)
Theorem C17_encrypted : forall re tp ag E f fo df n ef n', file_encrypt re tp ag E f fo df n = Ok (ef, n') ->
  exists em k, enc_map_from_internal fo em = Ok (fl_map ef) /\ nonces_of em = map (draw_nonce tp) (seq n k)
    /\ ev_nonce (md_mac (fl_meta ef)) = draw_nonce tp (n + k) /\ n' = S (n + k)
    /\ ((forall x y, n <= x < n' -> n <= y < n' -> draw_nonce tp x = draw_nonce tp y -> x = y) -> NoDup (ev_nonce (md_mac (fl_meta ef)) :: nonces_of em)).
Proof.
  intros re tp ag E f fo df n ef n' H. unfold file_encrypt in H. apply bind_ok in H. destruct H as (key & _ & H). apply bind_ok in H. destruct H as (dm & _ & H).
  apply fresh_parts in H. destruct H as (em & k & A & B & C & D & _). exists em, k. split; auto. split; auto. split; auto. split; auto.
  intro X. rewrite B, C. apply draws_differ; [|lia]. intros x y I J. apply X; lia.
Qed.
Print Assumptions C17_encrypted.

Example C17_witness : builder_encrypt ex_re ex_tape toy_age ex_here Yaml ex_builder 0 = Ok (ex_ef, 12)
  /\ nonces_of (read_enc Yaml ex_ef) = map (draw_nonce ex_tape) (seq 1 4) /\ ev_nonce (md_mac (fl_meta ex_ef)) = draw_nonce ex_tape 11
  /\ forall x y, 0 < x < 12 -> 0 < y < 12 -> draw_nonce ex_tape x = draw_nonce ex_tape y -> x = y.
Proof.
  split; [exact ex_built|]. split; [by_vm|]. split; [by_vm|]. apply (ex_draws_differ 12). by_vm.
Qed.

(** * C19 *)

(** The full statement is: [edits re tp ag key used f ef n -> used m -> used m' -> nonce_of m = nonce_of m' -> plain_of m = plain_of m' /\ aad_of m = aad_of m'].
    It is false: the saved nonce of the MAC is used again whenever the MAC text is the same (saved_mac_nonce.rs), but the associated data is the
    new last-modified time.  Renaming a key keeps the MAC and changes the time. *)
Definition renamed_doc : fmap := [(FStr (lit "a2"), FStr (lit "x")); (FStr (lit "b"), FNum (NInt 5))].
Definition renamed_df : dfile := Eval vm_compute in get no_dfile (file_set_map ex_re ex_tomorrow Yaml small_df renamed_doc 20).
Definition renamed_ef : efile := Eval vm_compute in fst (get (no_efile, 0) (file_encrypt_saved ex_re ex_tape Yaml Yaml small_sv renamed_df 21)).
Lemma plain_fits : forall dm, fits Yaml None dm.
Proof. intro dm. split; [|split; discriminate]. intros ks v _. right. exact I. Qed.
Definition small_dm : dmap := [(lit "a", Leaf (VStr (lit "x"))); (lit "b", Leaf (VInt 5))].
Definition small_used : message -> Prop := sent ex_re Yaml small_ef small_dm (compute_mac ex_re None None small_dm).
Definition renamed_used (m : message) : Prop :=
  small_used m \/ sent ex_re Yaml renamed_ef [(lit "a2", Leaf (VStr (lit "x"))); (lit "b", Leaf (VInt 5))] (md_mac (fl_meta renamed_df)) m.
Theorem C19_reuse_refuted : exists re tp ag key used f ef n m m', (forall i j, i < n -> j < n -> draw_nonce tp i = draw_nonce tp j -> i = j)
  /\ edits re tp ag key used f ef n /\ used m /\ used m' /\ nonce_of m = nonce_of m' /\ aad_of m <> aad_of m'.
Proof.
  assert (B : edits ex_re ex_tape toy_age small_key small_used Yaml small_ef 9).
  { apply (edits_built ex_re ex_tape toy_age small_key ex_here Yaml (small_builder Yaml small_doc) 0); [doc_ok|reflexivity|apply plain_fits|reflexivity|exact small_built]. }
  exists ex_re, ex_tape, toy_age, small_key, renamed_used, Yaml, renamed_ef, 22.
  exists (ForMac (ev_nonce (md_mac (fl_meta small_ef))) (timestamp_text (md_modified (fl_meta small_ef))) (compute_mac ex_re None None small_dm)),
    (ForMac (ev_nonce (md_mac (fl_meta renamed_ef))) (timestamp_text (md_modified (fl_meta renamed_ef))) (md_mac (fl_meta renamed_df))).
  split. { intros i j I J. apply (ex_draws_below 22); auto. }
  split.
  { apply (edits_edit ex_re ex_tape toy_age small_key ex_here small_used Yaml Yaml Yaml small_ef 9 small_df small_sv renamed_df [(lit "a2", Leaf (VStr (lit "x"))); (lit "b", Leaf (VInt 5))] 21).
    - exact B.
    - exact small_opened.
    - by_vm.
    - replace (fl_map renamed_df) with renamed_doc by by_vm. doc_ok.
    - unfold document. by_vm.
    - replace (md_partial (fl_meta renamed_df)) with (@None partial) by by_vm. apply plain_fits.
    - lia.
    - by_vm. }
  split; [left; constructor|]. split; [right; constructor|]. split; [by_vm|]. intro H. vm_compute in H. discriminate.
Qed.
Print Assumptions C19_reuse_refuted.

(** What does hold through any number of edits, if the draws differ: two invocations with one nonce have one plaintext, and one associated
    data unless both encrypt the MAC. *)
Theorem C19_messages_partial : forall re tp ag key used f ef n m m', (forall i j, i < n -> j < n -> draw_nonce tp i = draw_nonce tp j -> i = j) ->
  edits re tp ag key used f ef n -> used m -> used m' -> nonce_of m = nonce_of m' ->
  plain_of m = plain_of m' /\ (aad_of m = aad_of m' \/ is_mac m /\ is_mac m').
Proof. exact edits_messages. Qed.
Print Assumptions C19_messages_partial.

(** * C20 *)

(** The full statement is [C20_unedited_file_partial] without its hypothesis on equal values.  It is false: with two equal values at one
    key path only one of their nonces is saved (C20_unedited_refuted). *)
Definition twice_ef : efile := Eval vm_compute in build_doc Yaml None [(FStr (lit "a"), FSeq [FStr (lit "x"); FStr (lit "x")])].
Definition twice_open : dfile * saved := Eval vm_compute in opened ex_here Yaml twice_ef.
Definition twice_again : efile := Eval vm_compute in fst (get (no_efile, 0) (file_encrypt_saved ex_re ex_tape Yaml Yaml (snd twice_open) (fst twice_open) 30)).
Theorem C20_unedited_file_refuted : exists re tp ag E f ef df sv n ef' n', age_law ag /\ file_decrypt_save re ag E f f ef = Ok (df, sv)
  /\ file_encrypt_saved re tp f f sv df n = Ok (ef', n') /\ fl_map ef' <> fl_map ef.
Proof.
  exists ex_re, ex_tape, toy_age, ex_here, Yaml, twice_ef, (fst twice_open), (snd twice_open), 30, twice_again, 30.
  split; [exact toy_age_law|]. split; [by_vm|]. split; [by_vm|]. intro H. vm_compute in H. discriminate.
Qed.
Print Assumptions C20_unedited_file_refuted.

(** A file reached by any history of operations, decrypted and encrypted again with the saved parameters, is reproduced, and no draw is used, if
    equal values at one joined key path have one nonce. *)
Theorem C20_unedited_file_partial : forall re tp ag W E f ef dm df sv n, age_law ag -> kms_law W -> W E -> hist re tp ag W (Enc f ef) dm ->
  file_decrypt_save re ag E f f ef = Ok (df, sv) ->
  (forall em, enc_map_to_internal re f (md_partial (fl_meta ef)) (fl_map ef) = Ok em ->
     forall i j ks ks' e e' v, pair_at em dm i ks e v -> pair_at em dm j ks' e' v -> path_text ks = path_text ks' -> ev_nonce e = ev_nonce e') ->
  file_encrypt_saved re tp f f sv df n = Ok (ef, n).
Proof.
  intros re tp ag W E f ef dm df sv n AL KL WE H D X. apply hist_inv in H; auto. destruct H as (key & H). eapply unedited; eauto.
Qed.
Print Assumptions C20_unedited_file_partial.

Definition ex_open : dfile * saved := Eval vm_compute in opened ex_at_bob Yaml ex_ef.
Example C20_file_witness : file_decrypt_save ex_re toy_age ex_at_bob Yaml Yaml ex_ef = Ok ex_open
  /\ hist ex_re ex_tape toy_age toy_world (Enc Yaml ex_ef) ex_dmap
  /\ file_encrypt_saved ex_re ex_tape Yaml Yaml (snd ex_open) (fst ex_open) 30 = Ok (ex_ef, 30).
Proof.
  split; [by_vm|]. split; [|by_vm].
  apply (h_built ex_re ex_tape toy_age toy_world ex_here Yaml ex_builder 0 ex_dmap ex_ef 12); [apply ex_env_world|apply ex_doc_ok|apply ex_doc_ok| |exact ex_built].
  apply ex_fits.
Qed.

(** * C22 *)

(** The full statement allows the saved parameters of an earlier decryption at any later time.  It is false after a removal (see C29): here the
    file is built, decrypted, Alice removed, and encrypted with the saved parameters; Bob cannot decrypt it. *)
Theorem C22_history_refuted : exists re tp ag W E E' f b n ef n1 df sv r m df' u m' k ef' k',
  age_law ag /\ kms_law W /\ W E /\ W E' /\ fmt_doc f (bd_map b) /\ builder_encrypt re tp ag E f b n = Ok (ef, n1)
  /\ file_decrypt_save re ag E f f ef = Ok (df, sv) /\ file_remove_age tp ag E r df m = (df', Ok (Some u, m'))
  /\ file_encrypt_saved re tp f f sv df' k = Ok (ef', k') /\ can_open ag E' (md_recipients (fl_meta ef')) /\ file_decrypt re ag E' f f ef' = Err ECipher.
Proof.
  exists ex_re, ex_tape, toy_age, toy_world, ex_here, ex_at_bob, Yaml, (small_builder Yaml small_doc), 0, small_ef, 9, small_df, small_sv, (lit "age1alice"), 50, without_alice.
  eexists _, _, 70, stale_ef, 70. split; [exact toy_age_law|]. split; [exact toy_kms_law|]. split; [apply ex_env_world|]. split; [apply ex_env_world|]. split; [doc_ok|].
  split; [exact small_built|]. split; [exact small_opened|]. split; [vm_compute; reflexivity|]. split; [by_vm|]. split; [|by_vm].
  apply open_age with (ids := [ex_bob]) (i := ex_bob); [reflexivity|now left|]. vm_compute. tauto.
Qed.
Print Assumptions C22_history_refuted.

(** With the saved parameters dropped after a removal: after any history of operations the file decrypts, wherever it can be opened, to the
    document set last. *)
Theorem C22_history_partial : forall re tp ag W f fo ef dm E, age_law ag -> kms_law W -> hist re tp ag W (Enc f ef) dm -> W E ->
  can_open ag E (md_recipients (fl_meta ef)) -> fits fo (md_partial (fl_meta ef)) dm ->
  exists df, file_decrypt re ag E f fo ef = Ok df /\ document fo df dm.
Proof. intros. eapply hist_decrypts; eauto. Qed.
Print Assumptions C22_history_partial.

(** Built, decrypted for editing, one key renamed, encrypted with the saved parameters, decrypted, Carol added, Alice removed, encrypted to JSON. *)
Definition h_json : dfile := Eval vm_compute in reopened ex_tomorrow Yaml Json renamed_ef.
Definition h_carol : dfile := Eval vm_compute in fst (file_add_age toy_age ex_tomorrow [lit "age1carol"] h_json 30).
Definition h_left : dfile := Eval vm_compute in fst (file_remove_age ex_tape toy_age ex_tomorrow (lit "age1alice") h_carol 31).
Definition h_final : efile := Eval vm_compute in fst (get (no_efile, 0) (file_encrypt ex_re ex_tape toy_age ex_tomorrow Json Json h_left 40)).
Definition renamed_dm : dmap := [(lit "a2", Leaf (VStr (lit "x"))); (lit "b", Leaf (VInt 5))].
Lemma no_rule_fits : forall f rule, rule = None -> fits f rule renamed_dm.
Proof.
  intros f rule ->. split; [intros ks v _; right; exact I|]. split.
  - intros _ ks H. cbn in H. destruct H as [H|[H|[]]]; discriminate H.
  - intros _ ks v H N. cbn in H. destruct H as [H|[H|[]]]; injection H as _ <-; destruct N as [N|[N|N]]; discriminate N.
Qed.
Example C22_witness : hist ex_re ex_tape toy_age toy_world (Enc Json h_final) renamed_dm
  /\ can_open toy_age (ex_env (VarText (lit "AGE-SECRET-carol")) VarUnset ex_later true) (md_recipients (fl_meta h_final))
  /\ omap fl_map (file_decrypt ex_re toy_age (ex_env (VarText (lit "AGE-SECRET-carol")) VarUnset ex_later true) Json Json h_final) = Ok renamed_doc.
Proof.
  split; [|split; [apply open_age with (ids := [lit "AGE-SECRET-carol"]) (i := lit "AGE-SECRET-carol"); [reflexivity|now left|vm_compute; tauto]|by_vm]].
  assert (W : forall a k t up, toy_world (ex_env a k t up)) by exact ex_env_world.
  assert (H1 : hist ex_re ex_tape toy_age toy_world (Enc Yaml small_ef) small_dm).
  { apply (h_built ex_re ex_tape toy_age toy_world ex_here Yaml (small_builder Yaml small_doc) 0 small_dm small_ef 9); [apply W|doc_ok|reflexivity|apply plain_fits|exact small_built]. }
  assert (H2 : hist ex_re ex_tape toy_age toy_world (Dec Yaml small_df (Some small_sv)) small_dm).
  { apply (h_decrypted_saving _ _ _ _ ex_here Yaml Yaml small_ef); [apply W|exact H1| |exact small_opened].
    replace (md_partial (fl_meta small_ef)) with (@None partial) by by_vm. apply plain_fits. }
  assert (H3 : hist ex_re ex_tape toy_age toy_world (Dec Yaml renamed_df (Some small_sv)) renamed_dm).
  { apply (h_replaced _ _ _ _ ex_tomorrow Yaml small_df (Some small_sv) small_dm renamed_doc 20); [apply W|exact H2|doc_ok|reflexivity| |by_vm].
    apply no_rule_fits. by_vm. }
  assert (H4 : hist ex_re ex_tape toy_age toy_world (Enc Yaml renamed_ef) renamed_dm).
  { apply (h_edited _ _ _ _ Yaml Yaml renamed_df small_sv renamed_dm 21 renamed_ef 22); [exact H3| |by_vm]. apply no_rule_fits. by_vm. }
  assert (H5 : hist ex_re ex_tape toy_age toy_world (Dec Json h_json None) renamed_dm).
  { apply (h_decrypted _ _ _ _ ex_tomorrow Yaml Json renamed_ef); [apply W|exact H4| |by_vm]. apply no_rule_fits. by_vm. }
  assert (H6 : hist ex_re ex_tape toy_age toy_world (Dec Json h_carol None) renamed_dm).
  { apply (h_added_age _ _ _ _ ex_tomorrow Json _ None renamed_dm [lit "age1carol"] 30 h_carol (Ok 31) (W _ _ _ _) H5). by_vm. }
  assert (H7 : hist ex_re ex_tape toy_age toy_world (Dec Json h_left None) renamed_dm).
  { set (u := snd (file_remove_age ex_tape toy_age ex_tomorrow (lit "age1alice") h_carol 31)).
    assert (Q : exists x, u = Ok (Some x, 35)). { eexists. vm_compute. reflexivity. }
    destruct Q as (x & Q). apply (h_removed_age _ _ _ _ ex_tomorrow Json h_carol None renamed_dm (lit "age1alice") 31 h_left (Some x) 35 (W _ _ _ _) H6).
    rewrite <- Q. unfold u, h_left. apply surjective_pairing. }
  apply (h_encrypted _ _ _ _ ex_tomorrow Json Json h_left None renamed_dm 40 h_final 43 (W _ _ _ _) H7); [|by_vm]. apply no_rule_fits. by_vm.
Qed.

(** * C30 *)

(** The full statement is: [md_modified (fl_meta df') = md_modified (fl_meta df)] if the documents are equal, and [= whole_second (e_clock E n)] if they
    are not.  It is false in both directions, because maps are compared without regard to order and floats by their value. *)
(** Reordered keys: the MAC changes, the time does not. *)
Definition reordered_df : dfile := Eval vm_compute in get no_dfile (file_set_map ex_re ex_tomorrow Yaml small_df (rev small_doc) 20).
Theorem C30_reorder_refuted : exists re E f df other n df', file_set_map re E f df other n = Ok df' /\ fl_map df' <> fl_map df
  /\ md_mac (fl_meta df') <> md_mac (fl_meta df) /\ md_modified (fl_meta df') = md_modified (fl_meta df) /\ ~ same_second (md_modified (fl_meta df')) (e_clock E n).
Proof.
  exists ex_re, ex_tomorrow, Yaml, small_df, (rev small_doc), 20, reordered_df.
  split; [by_vm|]. split; [intro H; vm_compute in H; discriminate|]. split; [intro H; vm_compute in H; discriminate|]. split; [by_vm|].
  match goal with |- ~ same_second ?t _ => replace t with (whole_second ex_time) by by_vm end. intros (_ & _ & H & _). discriminate H.
Qed.
Print Assumptions C30_reorder_refuted.

(** 0.0 replaced by -0.0: the MAC changes, the time does not. *)
Definition zero_df : dfile := Eval vm_compute in reopened ex_here Yaml Yaml (build_doc Yaml None [(FStr (lit "z"), FNum (NFlt (FFin false 0 (-1074))))]).
Definition minus_df : dfile := Eval vm_compute in get no_dfile (file_set_map ex_re ex_tomorrow Yaml zero_df [(FStr (lit "z"), FNum (NFlt (FFin true 0 (-1074))))] 20).
Theorem C30_zero_refuted : exists re E f df other n df', file_set_map re E f df other n = Ok df' /\ fl_map df' <> fl_map df
  /\ md_mac (fl_meta df') <> md_mac (fl_meta df) /\ md_modified (fl_meta df') = md_modified (fl_meta df) /\ ~ same_second (md_modified (fl_meta df')) (e_clock E n).
Proof.
  exists ex_re, ex_tomorrow, Yaml, zero_df, [(FStr (lit "z"), FNum (NFlt (FFin true 0 (-1074))))], 20.
  exists minus_df.
  split; [by_vm|]. split; [intro H; vm_compute in H; discriminate|]. split; [intro H; vm_compute in H; discriminate|]. split; [by_vm|].
  match goal with |- ~ same_second ?t _ => replace t with (whole_second ex_time) by by_vm end. intros (_ & _ & H & _). discriminate H.
Qed.
Print Assumptions C30_zero_refuted.

(** A TOML document with NaN replaced by itself: the time changes. *)
Definition nan_df : dfile := Eval vm_compute in reopened ex_here Toml Toml (build_doc Toml None [(FStr (lit "x"), FNum (NFlt FNaN))]).
Definition nan_again : dfile := Eval vm_compute in get no_dfile (file_set_map ex_re ex_tomorrow Toml nan_df (fl_map nan_df) 20).
Theorem C30_nan_refuted : exists re E f df n df', file_set_map re E f df (fl_map df) n = Ok df' /\ fl_map df' = fl_map df /\ fl_map df <> []
  /\ md_mac (fl_meta df') = md_mac (fl_meta df) /\ ~ same_second (md_modified (fl_meta df')) (md_modified (fl_meta df)).
Proof.
  exists ex_re, ex_tomorrow, Toml, nan_df, 20, nan_again.
  split; [by_vm|]. split; [by_vm|]. split; [intro H; vm_compute in H; discriminate|]. split; [by_vm|].
  match goal with |- ~ same_second ?t ?t' => replace t with (whole_second ex_later) by by_vm; replace t' with (whole_second ex_time) by by_vm end. intros (_ & _ & H & _). discriminate H.
Qed.
Print Assumptions C30_nan_refuted.

(** What holds: the MAC is always that of the new document, everything else is kept, and the time follows the comparison [alike]. *)
Theorem C30_set_map_partial : forall re E f df other n df', file_set_map re E f df other n = Ok df' ->
  exists dm, dec_map_to_internal f other = Ok dm /\ dec_map_from_internal f dm = Ok (fl_map df')
    /\ mac_of re (md_only (fl_meta df)) (md_partial (fl_meta df)) dm (md_mac (fl_meta df'))
    /\ (alike f (FMap (fl_map df)) (FMap other) -> md_modified (fl_meta df') = md_modified (fl_meta df))
    /\ (~ alike f (FMap (fl_map df)) (FMap other) -> md_modified (fl_meta df') = whole_second (e_clock E n))
    /\ md_recipients (fl_meta df') = md_recipients (fl_meta df) /\ md_partial (fl_meta df') = md_partial (fl_meta df) /\ md_only (fl_meta df') = md_only (fl_meta df).
Proof. exact set_map_ok. Qed.
Print Assumptions C30_set_map_partial.

Example C30_witness : file_set_map ex_re ex_tomorrow Yaml small_df renamed_doc 20 = Ok renamed_df /\ md_modified (fl_meta renamed_df) = whole_second ex_later
  /\ omap (fun d => md_modified (fl_meta d)) (file_set_map ex_re ex_tomorrow Yaml small_df small_doc 20) = Ok (whole_second ex_time).
Proof. split; [by_vm|]. split; by_vm. Qed.

(** * C46 *)

(** A YAML document with the string "null", decrypted to TOML and encrypted again, no longer verifies. *)
Definition null_ef : efile := Eval vm_compute in build_doc Yaml None [(FStr (lit "a"), FStr (lit "null")); (FStr (lit "b"), FStr (lit "x"))].
Definition null_df : dfile := Eval vm_compute in reopened ex_here Yaml Toml null_ef.
Definition null_toml : efile := Eval vm_compute in fst (get (no_efile, 0) (file_encrypt ex_re ex_tape toy_age ex_here Toml Toml null_df 30)).
Theorem C46_file_refuted : exists re tp ag E ef df n ef' n', age_law ag /\ file_decrypt re ag E Yaml Toml ef = Ok df
  /\ file_encrypt re tp ag E Toml Toml df n = Ok (ef', n') /\ file_decrypt re ag E Toml Toml ef' = Err EMacMismatch.
Proof.
  exists ex_re, ex_tape, toy_age, ex_here, null_ef, null_df, 30, null_toml, 32.
  split; [exact toy_age_law|]. split; [by_vm|]. split; by_vm.
Qed.
Print Assumptions C46_file_refuted.

(** * C51 *)

(** The full statement has the mismatch message name the computed and the stored MAC.  It is false: the stored MAC does not appear, the
    computed one appears twice (file/error.rs:27). *)
Theorem C51_message_refuted : exists computed stored, length computed = 128 /\ length stored = 128 /\ ~ exists a b, mac_mismatch_message computed stored = a ++ stored ++ b.
Proof.
  exists (repeat "A"%byte 128), (repeat "B"%byte 128). split; [reflexivity|]. split; [reflexivity|]. intros (a & b & H).
  assert (I : In "B"%byte (mac_mismatch_message (repeat "A"%byte 128) (repeat "B"%byte 128))). { rewrite H. apply in_or_app. right. apply in_or_app. left. now left. }
  vm_compute in I. repeat (destruct I as [I|I]; [discriminate I|]). destruct I.
Qed.
Print Assumptions C51_message_refuted.
Theorem C51_message_partial : forall computed stored stored', mac_mismatch_message computed stored = mac_mismatch_message computed stored'
  /\ exists a b, mac_mismatch_message computed stored = a ++ computed ++ b.
Proof. intros. split; [reflexivity|]. now exists (lit "invalid MAC, computed "), (lit ", stored " ++ computed). Qed.
Print Assumptions C51_message_partial.
