(** Properties of the conversion between documents and the internal tree: C08, C32, C46, C48, C52. *)
From Verif.Model Require Import Mac Format.
From Verif.Spec Require Import SpecMap SpecFormat.
From Verif.Proofs Require Import BytesFacts Utf8Facts ValueFacts MapFacts NonceFacts MacFacts FormatFacts FormatEnc.
From Verif.Props Require Import PMap.

Local Open Scope nat_scope.

Lemma utf8_lit : forall s, utf8_valid s = true -> utf8_text s.
Proof. intros. now apply utf8_valid_iff. Qed.

Ltac doc_ok := cbn;
  repeat match goal with
  | |- _ /\ _ => split
  | |- NoDup _ => constructor
  | |- utf8_text _ => apply utf8_lit; reflexivity
  | |- ~ In _ _ => let H := fresh in intro H; cbn in H; repeat (destruct H as [H|H]; [discriminate H|]); destruct H
  end; auto; try discriminate; try lia.

(** A document with every kind of value. *)
Definition ex_doc : fmap :=
  [ (FStr (lit "user"), FStr (lit "bob"));
    (FStr (lit "db"), FMap [(FStr (lit "password"), FTagged (lit "!secret") (FStr (lit "hunter2"))); (FStr (lit "none"), FNull);
                            (FStr (lit "ports"), FSeq [FNum (NInt 5432); FNum (NInt (-9223372036854775808))])]);
    (FStr (lit "ratio_public"), FSeq [FNum (NFlt (FFin false 4503599627370496 (-53))); FNum (NFlt FNaN); FBool true]) ].
Definition ex_dmap : dmap := match dec_map_to_internal Yaml ex_doc with Ok m => m | _ => [] end.

Example ex_doc_ok : fmt_doc Yaml ex_doc /\ dec_map_to_internal Yaml ex_doc = Ok ex_dmap.
Proof.
  split; [|vm_compute; reflexivity]. doc_ok.
Qed.

(** C32: a document is read iff all its keys are strings and all its integers fit in 64 bits signed; otherwise reading is an
    error (never an abort), whatever the format. *)
Theorem C32_document_integers : forall f m, (forall k, In k (fkeys_of (FMap m)) -> exists s, k = FStr s) ->
  ((forall z, In z (ints_of (FMap m)) -> (- 2 ^ 63 <= z < 2 ^ 63)%Z) -> exists im, dec_map_to_internal f m = Ok im)
  /\ ((exists z, In z (ints_of (FMap m)) /\ ~ (- 2 ^ 63 <= z < 2 ^ 63)%Z) -> dec_map_to_internal f m = Err EIntegerOutOfRange).
Proof. exact dec_map_integers. Qed.
Print Assumptions C32_document_integers.

(** C32: every integer of the document is an integer of the internal map, under the same keys. *)
Theorem C32_document_exact : forall f m im ks z, fmt_doc f m -> dec_map_to_internal f m = Ok im ->
  at_path (FMap m) ks (FNum (NInt z)) -> In (ks, VInt z) (map_values im).
Proof. exact dec_map_int_at. Qed.
Print Assumptions C32_document_exact.

Example C32_document_witness :
  at_path (FMap ex_doc) [lit "db"; lit "ports"] (FNum (NInt (-9223372036854775808)))
  /\ In ([lit "db"; lit "ports"], VInt (-9223372036854775808)) (map_values ex_dmap)
  /\ dec_map_to_internal Json [(FStr (lit "a"), FNum (NInt 1)); (FStr (lit "b"), FSeq [FNum (NInt 9223372036854775808)])] = Err EIntegerOutOfRange.
Proof.
  split; [|split].
  - eapply at_key; [right; left; reflexivity|]. eapply at_key; [right; right; left; reflexivity|]. eapply at_elem; [right; left; reflexivity|]. constructor.
  - vm_compute. tauto.
  - reflexivity.
Qed.

(** Reading a document and writing it back in its own format gives the same document, up to tags and dates (part of C11, C46). *)
Theorem C11_document_round_trip : forall f m im, fmt_doc f m -> dec_map_to_internal f m = Ok im -> dec_map_from_internal f im = Ok (normal_doc m).
Proof. intros f m im W H. now apply (dec_map_to_from f m im W H). Qed.
Print Assumptions C11_document_round_trip.

Example C11_document_witness : dec_map_from_internal Yaml ex_dmap = Ok (normal_doc ex_doc) /\ normal_doc ex_doc <> ex_doc.
Proof. split; [vm_compute; reflexivity|]. intro H. vm_compute in H. discriminate. Qed.

(** C46, native documents: a TOML document keeps its strings (the string "null" included) through the internal map. *)
Theorem C46_native : forall m im, fmt_doc Toml m -> dec_map_to_internal Toml m = Ok im ->
  dec_map_from_internal Toml im = Ok (normal_doc m) /\ forall ks, ~ In (ks, VStr (lit "null")) (map_values im).
Proof. exact toml_native. Qed.
Print Assumptions C46_native.

Example C46_native_witness : let m := [(FStr (lit "a"), FStr (lit "null")); (FStr (lit "d"), FDate (lit "1979-05-27T07:32:00Z"))] in
  fmt_doc Toml m /\ dec_map_to_internal Toml m = Ok [(lit "a", Null); (lit "d", Leaf (VStr (lit "1979-05-27T07:32:00Z")))].
Proof.
  split; [|vm_compute; reflexivity]. doc_ok.
Qed.

(** C46, converted documents.  The full statement is that writing an internal map as TOML and reading it gives the same map and
    so the same MAC.  It is false: the string "null" comes back as null, which the MAC does not cover. *)
Theorem C46_conversion_refuted : exists m im tm im', fmt_doc Yaml m /\ dec_map_to_internal Yaml m = Ok im /\ dec_map_from_internal Toml im = Ok tm
  /\ dec_map_to_internal Toml tm = Ok im' /\ im' <> im /\ compute_mac ex_re None None im' <> compute_mac ex_re None None im.
Proof.
  exists [(FStr (lit "a"), FStr (lit "null")); (FStr (lit "b"), FStr (lit "x"))], [(lit "a", Leaf (VStr (lit "null"))); (lit "b", Leaf (VStr (lit "x")))],
    [(FStr (lit "a"), FStr (lit "null")); (FStr (lit "b"), FStr (lit "x"))], [(lit "a", Null); (lit "b", Leaf (VStr (lit "x")))].
  split.
  - doc_ok.
  - split; [reflexivity|]. split; [reflexivity|]. split; [reflexivity|]. split; [discriminate|]. intro H. vm_compute in H. discriminate.
Qed.
Print Assumptions C46_conversion_refuted.

(** Exactly what a conversion does: YAML and JSON give the same map back, TOML gives the map with "null" strings read as null. *)
Theorem C46_conversion_partial : forall f im fm, distinct_keys (Map im) -> rust_map im -> dec_map_from_internal f im = Ok fm ->
  exists im', dec_map_to_internal f fm = Ok im' /\ Map im' = read_as f (Map im)
  /\ ((f = Toml -> forall ks, ~ In (ks, VStr (lit "null")) (map_values im)) -> im' = im).
Proof. exact conversion_back. Qed.
Print Assumptions C46_conversion_partial.

Example C46_conversion_witness : exists fm, dec_map_from_internal Toml ex_dmap = Ok fm /\ dec_map_to_internal Toml fm = Ok ex_dmap
  /\ In (FStr (lit "none"), FStr (lit "null")) (match lookup (lit "db") (map (fun kv => (match fst kv with FStr s => s | _ => [] end, snd kv)) fm) with Some (FMap m) => m | _ => [] end).
Proof.
  eexists. split; [vm_compute; reflexivity|]. split; [vm_compute; reflexivity|]. vm_compute. tauto.
Qed.

(** C48.  The full statement is [dec_map_from_internal f im <> Panic]; it is false: a YAML document with a NaN aborts the
    conversion to JSON (json/mod.rs:124-134 [expect]). *)
Theorem C48_conversion_refuted : exists m im, fmt_doc Yaml m /\ dec_map_to_internal Yaml m = Ok im /\ dec_map_from_internal Json im = Panic.
Proof. exists ex_doc, ex_dmap. split; [apply ex_doc_ok|]. split; [apply ex_doc_ok|]. vm_compute. reflexivity. Qed.
Print Assumptions C48_conversion_refuted.

(** Exactly: conversion of a map gives a document, except that conversion to JSON aborts iff some value is NaN or infinite. *)
Theorem C48_conversion_partial : forall f im, rust_map im ->
  (dec_map_from_internal f im = Panic <-> f = Json /\ exists ks v, In (ks, v) (map_values im) /\ non_finite v)
  /\ (forall e, dec_map_from_internal f im <> Err e).
Proof. exact conversion_outcome. Qed.
Print Assumptions C48_conversion_partial.

Example C48_witness : rust_map ex_dmap /\ non_finite (VFloat (lit "NaN")) /\ exists fm, dec_map_from_internal Toml ex_dmap = Ok fm.
Proof.
  destruct ex_doc_ok as [W D]. split; [apply (dec_map_to_from _ _ _ W D)|]. split; [now left|]. eexists. vm_compute. reflexivity.
Qed.

(** C52: in encryption scope only well-formed encrypted-value text (or null) is accepted when an encrypted document is read. *)
Theorem C52_plaintext_rejected : forall re f rule m em ks x, enc_map_to_internal re f rule m = Ok em ->
  at_path (FMap m) ks x -> scalar_value f x -> in_scope re rule ks -> exists s e, x = FStr s /\ parse_evalue s = Ok e.
Proof. exact plaintext_rejected. Qed.
Print Assumptions C52_plaintext_rejected.

(** C52: in the map that results, exactly the values in scope are encrypted values. *)
Theorem C52_classification : forall re f rule m em ks l, enc_map_to_internal re f rule m = Ok em -> In (ks, l) (map_values em) ->
  ((exists e, l = Encrypted e) <-> in_scope re rule ks).
Proof. exact read_classification. Qed.
Print Assumptions C52_classification.

Example C52_witness :
  let m := [(FStr (lit "a_public"), FNum (NInt 1)); (FStr (lit "b"), FStr (lit "plain"))] in
  enc_map_to_internal ex_re Yaml ex_rule m = Err EEncryptedValue
  /\ enc_map_to_internal ex_re Yaml ex_rule [(FStr (lit "b"), FBool true)] = Err EPlaintextWhenEncrypted
  /\ at_path (FMap m) [lit "b"] (FStr (lit "plain")).
Proof.
  split; [vm_compute; reflexivity|]. split; [vm_compute; reflexivity|]. eapply at_key; [right; left; reflexivity|]. constructor.
Qed.

(** C08.  The full statement is [C08_agreement_partial] without the hypothesis [colon_safe_map].  It is false: the encrypting
    side tests the rule on the last colon-separated segment, the reading side and the MAC on the whole key, so that a written
    file is rejected when read. *)
Theorem C08_agreement_refuted : exists re tp key rule m n em n' fm, rust_map m /\ distinct_keys (Map m)
  /\ encrypt_map re tp None key rule m n = Ok (em, n') /\ enc_map_from_internal Yaml em = Ok fm
  /\ exists e, enc_map_to_internal re Yaml rule fm = Err e.
Proof.
  exists ex_re, ex_tape, ex_key, (Some (EncryptedSuffix (lit ":secret"))), [(lit "db:secret", Leaf (VStr (lit "hunter2")))], 0.
  exists [(lit "db:secret", Leaf (Escaped (VStr (lit "hunter2"))))], 0, [(FStr (lit "db:secret"), FStr (lit "hunter2"))].
  split. { intros ks v [E|[]]. injection E as <- <-. apply rust_lit. reflexivity. }
  split. { cbn. repeat constructor. intros []. }
  split; [vm_compute; reflexivity|]. split; [vm_compute; reflexivity|]. eexists. vm_compute. reflexivity.
Qed.
Print Assumptions C08_agreement_refuted.

(** When colons do not interfere: the three sides classify every value alike, and what was written is read back exactly.  For
    TOML, unencrypted "null" strings are excluded (see C46; native TOML documents have none). *)
Theorem C08_agreement_partial : forall re tp saved key rule f m n em n',
  rust_map m -> distinct_keys (Map m) -> saved_ok saved -> colon_safe_map rule m ->
  (f = Toml -> forall ks, In (ks, VStr (lit "null")) (map_values m) -> in_scope re rule ks) ->
  encrypt_map re tp saved key rule m n = Ok (em, n') ->
  (forall fm, enc_map_from_internal f em = Ok fm -> enc_map_to_internal re f rule fm = Ok em)
  /\ (forall ks l, In (ks, l) (map_values em) -> ((exists e, l = Encrypted e) <-> covered re true rule ks)).
Proof. exact agreement. Qed.
Print Assumptions C08_agreement_partial.

Definition ex_fdoc : fmap := match enc_map_from_internal Toml ex_emap with Ok fm => fm | _ => [] end.
Example C08_witness : rust_map ex_map /\ distinct_keys (Map ex_map) /\ colon_safe_map ex_rule ex_map
  /\ enc_map_from_internal Toml ex_emap = Ok ex_fdoc /\ enc_map_to_internal ex_re Toml ex_rule ex_fdoc = Ok ex_emap.
Proof.
  split; [apply ex_map_rust|]. split; [|split; [|split; vm_compute; reflexivity]].
  - doc_ok.
  - intros ks v _. right. change (no_colon (lit "_public")). now apply notin_lit.
Qed.
