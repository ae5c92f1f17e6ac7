(** Properties of single values: C01 - C06, C31 - C33. *)
From Verif.Model Require Import Value Hex.
From Verif.Spec Require Import SpecValue.
From Verif.Proofs Require Import BytesFacts Base64Facts Base64Spec IntFacts FloatFacts Utf8Facts GcmFacts ValueFacts.

Local Open Scope nat_scope.

Definition ex_key : bytes := repeat x01 32.
Definition ex_nonce : bytes := repeat x02 32.
Definition ex_path : bytes := lit "db:password:".
Definition ex_value : value := VStr (lit "pass" ++ [xc3; xa9]).
Definition ex_float : value := VFloat (f64_text (FFin true 4503599627370497 (-52))).

(** C01: typed values survive the byte form that is encrypted. *)
Theorem C01_byte_form_round_trip : forall v : value, rust_value v ->
  value_from_bytes (value_bytes v) (type_of v) = Ok v.
Proof. exact value_bytes_round. Qed.
Print Assumptions C01_byte_form_round_trip.

Example C01_witness_str : rust_value ex_value.
Proof. constructor. apply utf8_valid_iff. reflexivity. Qed.
Example C01_witness_float : rust_value ex_float /\ value_bytes ex_float = lit "-1.0000000000000002".
Proof. split; [constructor|]; vm_compute; reflexivity. Qed.

(** C01: reading bytes never changes the recorded type, never aborts, and for strings and booleans accepts one form only. *)
Theorem C01_reading_respects_type : forall (b : bytes) (ty : variant),
  (forall v, value_from_bytes b ty = Ok v -> type_of v = ty /\ rust_value v /\ (ty = TyStr \/ ty = TyBool -> value_bytes v = b))
  /\ value_from_bytes b ty <> Panic.
Proof. intros b ty. split. apply value_from_bytes_typed. apply value_from_bytes_no_panic. Qed.
Print Assumptions C01_reading_respects_type.

Example C01_witness_reading : value_from_bytes (lit "+07") TyInt = Ok (VInt 7) /\ value_from_bytes (lit "true") TyBool = Err EBoolean.
Proof. split; reflexivity. Qed.

(** C01: values of one type with the same byte form are equal. *)
Theorem C01_byte_form_injective : forall v w : value, rust_value v -> rust_value w -> type_of v = type_of w ->
  value_bytes v = value_bytes w -> v = w.
Proof. exact value_bytes_injective. Qed.
Print Assumptions C01_byte_form_injective.

(** C02: encrypted values survive being written to and read from text. *)
Theorem C02_text_round_trip : forall e : evalue, rust_evalue e -> parse_evalue (evalue_text e) = Ok e.
Proof. exact evalue_text_round. Qed.
Print Assumptions C02_text_round_trip.

Example C02_witness : rust_evalue (EValue (lit "abc,]") ex_nonce (repeat x03 16) TyFloat).
Proof. split; reflexivity. Qed.

(** C03: parsing encrypted-value text never aborts.  The full statement is
      [forall s, parse_evalue s <> Panic];
    it is false of the code: an [iv] or [tag] that decodes to too many bytes aborts (base64utils.rs:28-32). *)
Theorem C03_parse_never_aborts_refuted : exists s, parse_evalue s = Panic.
Proof.
  exists (lit "ENC[AES256_GCM,data:,iv:AAAAAAAAAAAAAAAAAAAAAAAAAAAAAAAAAAAAAAAAAAAAAAAA,tag:AAAAAAAAAAAAAAAAAAAAAA==,type:str]").
  reflexivity.
Qed.
Print Assumptions C03_parse_never_aborts_refuted.

(** What remains true: it aborts only when an "iv:" or "tag:" component is base64 of more than 32 (16) bytes. *)
Theorem C03_parse_never_aborts_partial : forall s,
  (forall body c x d, s = lit "ENC[" ++ body ++ lit "]" -> In c (split_on "," body) ->
     (c = lit "iv:" ++ x -> is_base64_text x d -> length d <= 32) /\ (c = lit "tag:" ++ x -> is_base64_text x d -> length d <= 16)) ->
  parse_evalue s <> Panic.
Proof.
  intros s H P. apply parse_evalue_panic in P. destruct P as (body & c & E & I & d & x & [(A & B & L)|(A & B & L)]);
    specialize (H body c x d E I); destruct H as [H1 H2]; [specialize (H1 A B)|specialize (H2 A B)]; lia.
Qed.
Print Assumptions C03_parse_never_aborts_partial.

Example C03_witness : parse_evalue (lit "ENC[AES256_GCM,data:%,iv:AAAA,tag:AAAA,type:str]") = Err EBase64.
Proof. reflexivity. Qed.

(** C04: the accepted texts are exactly those of the documented shape, and the value is determined by the fields.  A nonce or
    tag that is too short is filled up with zero bytes; further components are ignored. *)
Theorem C04_accepted_shape : forall (s : bytes) (e : evalue), parse_evalue s = Ok e <->
  exists d i t i0 t0 r, (r = [] \/ exists r', r = ","%byte :: r')
    /\ s = lit "ENC[AES256_GCM,data:" ++ d ++ lit ",iv:" ++ i ++ lit ",tag:" ++ t ++ lit ",type:" ++ type_name (ev_type e) ++ r ++ lit "]"
    /\ is_base64_text d (ev_data e) /\ is_base64_text i i0 /\ padded 32 i0 (ev_nonce e) /\ is_base64_text t t0 /\ padded 16 t0 (ev_tag e).
Proof. exact parse_evalue_iff. Qed.
Print Assumptions C04_accepted_shape.

Theorem C04_redisplay : forall (s : bytes) (e : evalue), parse_evalue s = Ok e -> parse_evalue (evalue_text e) = Ok e.
Proof. intros s e H. apply evalue_text_round. eapply parse_evalue_sizes; eauto. Qed.
Print Assumptions C04_redisplay.

Example C04_witness : parse_evalue (lit "ENC[AES256_GCM,data:YQ==,iv:,tag:AQ,type:bool,junk]")
  = Ok (EValue (lit "a") (repeat x00 32) (x01 :: repeat x00 15) TyBool).
Proof. reflexivity. Qed.

(** C05: a value encrypted at a key path decrypts at that key path, and encryption fails only beyond the GCM length limits. *)
Theorem C05_encrypt_decrypt : forall (v : value) (nonce key path : bytes), rust_value v ->
  (gcm_fits (value_bytes v) /\ gcm_fits path -> exists e, encrypt_value v nonce key path = Ok e)
  /\ (forall e, encrypt_value v nonce key path = Ok e -> decrypt_value e key path = Ok v).
Proof.
  intros v nonce key path R. split.
  - intros [A B]. now apply encrypt_value_total.
  - intros e. now apply decrypt_encrypt_value.
Qed.
Print Assumptions C05_encrypt_decrypt.

Example C05_witness : gcm_fits (value_bytes ex_value) /\ gcm_fits ex_path /\
  match encrypt_value ex_value ex_nonce ex_key ex_path with
  | Ok e => ev_data e <> value_bytes ex_value /\ decrypt_value e ex_key ex_path = Ok ex_value
  | _ => False
  end.
Proof. split; [vm_compute; discriminate|]. split; [vm_compute; discriminate|]. vm_compute. split; [discriminate|reflexivity]. Qed.

(** C06: an altered encrypted value is accepted only if its tag is the GCM tag of the altered message.  [e] is what rops wrote,
    [e'] what is presented, at a possibly different path and under a possibly different key.  If the presented tag is the
    one that was written, the two different messages collide; a value that differs in the tag only is always rejected. *)
Theorem C06_binding : forall (v : value) (nonce key path : bytes) (e e' : evalue) (key' path' : bytes) (v' : value),
  encrypt_value v nonce key path = Ok e -> decrypt_value e' key' path' = Ok v' ->
  (ev_data e' = ev_data e /\ ev_nonce e' = nonce /\ ev_tag e' = ev_tag e /\ key' = key /\ path' = path)
  \/ ((key', ev_nonce e', path', ev_data e') <> (key, nonce, path, ev_data e)
      /\ ev_tag e' = gcm_tag key' (ev_nonce e') path' (ev_data e')
      /\ (ev_tag e' = ev_tag e -> gcm_tag key' (ev_nonce e') path' (ev_data e') = gcm_tag key nonce path (ev_data e))).
Proof.
  intros v nonce key path e e' key' path' v' E D.
  apply encrypt_value_ok in E. destruct E as (_ & _ & ->). apply decrypt_value_ok in D. destruct D as (T & _).
  cbn [ev_data ev_nonce ev_tag]. set (c := gcm_ctr key nonce (value_bytes v)) in *.
  destruct (bytes_eq_dec key' key) as [K|K]; [|right; split; [congruence|split; [exact T|congruence]]].
  destruct (bytes_eq_dec (ev_nonce e') nonce) as [N|N]; [|right; split; [congruence|split; [exact T|congruence]]].
  destruct (bytes_eq_dec path' path) as [P|P]; [|right; split; [congruence|split; [exact T|congruence]]].
  destruct (bytes_eq_dec (ev_data e') c) as [C|C]; [|right; split; [congruence|split; [exact T|congruence]]].
  left. repeat split; auto. rewrite T. congruence.
Qed.
Print Assumptions C06_binding.

Theorem C06_tag_only : forall (v : value) (nonce key path : bytes) (e : evalue) (tag' : bytes) (ty' : variant),
  encrypt_value v nonce key path = Ok e -> tag' <> ev_tag e ->
  decrypt_value (EValue (ev_data e) (ev_nonce e) tag' ty') key path = Err ECipher.
Proof.
  intros v nonce key path e tag' ty' E N. apply encrypt_value_ok in E. destruct E as (_ & _ & ->). cbn [ev_data ev_nonce ev_tag] in *.
  unfold decrypt_value, cipher_decrypt, ok_or. cbn [ev_data ev_nonce ev_tag ev_type].
  destruct (gcm_decrypt _ _ _ _ _) eqn:D; auto. apply gcm_decrypt_some in D. destruct D as (-> & _). congruence.
Qed.
Print Assumptions C06_tag_only.

Example C06_witness :
  match encrypt_value ex_value ex_nonce ex_key ex_path with
  | Ok e => decrypt_value e ex_key (lit "db:user:") = Err ECipher
            /\ decrypt_value e (repeat x09 32) ex_path = Err ECipher
            /\ decrypt_value (EValue (ev_data e) ex_key (ev_tag e) TyStr) ex_key ex_path = Err ECipher
            /\ decrypt_value (EValue (ev_data e ++ [x00]) ex_nonce (ev_tag e) TyStr) ex_key ex_path = Err ECipher
  | _ => False
  end.
Proof. vm_compute. repeat split. Qed.

(** C31: base64 and hex are lossless and canonical. *)
Theorem C31_base64_lossless : forall d : bytes, decode_base64_vec (encode_base64 d) = Ok d /\ is_base64_text (encode_base64 d) d.
Proof. intro d. split. apply decode_encode_vec. apply is_base64_text_iff, decode_encode_vec. Qed.
Print Assumptions C31_base64_lossless.

Theorem C31_base64_canonical : forall t : bytes,
  (forall d, decode_base64_vec t = Ok d <-> is_base64_text t d)
  /\ ((forall d, ~ is_base64_text t d) -> decode_base64_vec t = Err EBase64)
  /\ (forall t' d, base64_of d t -> base64_of d t' -> t = t')
  /\ (forall d d', base64_of d t -> base64_of d' t -> d = d').
Proof.
  intro t. split; [|split; [|split]].
  - intro d. now rewrite is_base64_text_iff.
  - intro H. destruct (decode_base64_vec t) as [d|e|] eqn:E.
    + destruct (H d). now apply is_base64_text_iff.
    + unfold decode_base64_vec, ok_or in E. destruct (b64_decode_nopad _); congruence.
    + unfold decode_base64_vec in E. now apply ok_or_panic in E.
  - intros t' d A B. apply base64_of_unique in A. apply base64_of_unique in B. congruence.
  - intros d d' A B. apply base64_of_unique in A. apply base64_of_unique in B.
    assert (H : b64_decode_nopad (b64_encode_nopad d) = b64_decode_nopad (b64_encode_nopad d')) by congruence.
    rewrite !b64_decode_encode_nopad in H. congruence.
Qed.
Print Assumptions C31_base64_canonical.

Example C31_witness : encode_base64 (lit "any carnal pleas") = lit "YW55IGNhcm5hbCBwbGVhcw=="
  /\ decode_base64_vec (lit "YW55IGNhcm5hbCBwbGVhcw") = Ok (lit "any carnal pleas")
  /\ decode_base64_vec (lit "YR==") = Err EBase64 /\ decode_base64_vec (lit "Y!") = Err EBase64.
Proof. repeat split. Qed.

Theorem C31_hex : forall d : bytes, hex_decode (hex_encode_upper d) = Some d
  /\ (forall t, (forall c, In c t -> In c (lit "0123456789ABCDEF")) -> hex_decode t = Some d -> t = hex_encode_upper d)
  /\ (forall d', hex_encode_upper d = hex_encode_upper d' -> d = d').
Proof.
  intro d. split; [apply hex_decode_encode|]. split.
  - intros t H K. symmetry. now apply hex_encode_decode.
  - apply hex_encode_injective.
Qed.
Print Assumptions C31_hex.

Example C31_hex_witness : hex_encode_upper [x00; xaf; xff] = lit "00AFFF" /\ hex_decode (lit "0") = None /\ hex_decode (lit "0G") = None.
Proof. repeat split. Qed.

(** C32 (value layer): integers neither wrap nor get truncated; text outside the signed 64-bit range is refused. *)
Theorem C32_value_layer : forall z : Z,
  ((- 2 ^ 63 <= z < 2 ^ 63)%Z -> value_from_bytes (value_bytes (VInt z)) TyInt = Ok (VInt z))
  /\ (forall b z', value_from_bytes b TyInt = Ok (VInt z') -> (- 2 ^ 63 <= z' < 2 ^ 63)%Z)
  /\ (~ (- 2 ^ 63 <= z < 2 ^ 63)%Z -> value_from_bytes (int_text z) TyInt = Err EInteger).
Proof.
  intro z. split; [|split].
  - intro H. apply (value_bytes_round (VInt z)). now constructor.
  - intros b z' H. apply value_from_bytes_typed in H. destruct H as (_ & R & _). now inversion R.
  - intro H. cbn [value_from_bytes]. rewrite int_text_utf8. rewrite parse_int_text_out; auto.
    apply not_true_is_false. now rewrite in_i64_iff.
Qed.
Print Assumptions C32_value_layer.

Example C32_witness : value_from_bytes (lit "9223372036854775808") TyInt = Err EInteger
  /\ value_from_bytes (lit "-9223372036854775808") TyInt = Ok (VInt (- 2 ^ 63)).
Proof. split; reflexivity. Qed.

(** C33: the stored text of a float reads back to the same number and is a fixed point. *)
Theorem C33_float_text : forall x : f64, f64_canonical x = true ->
  parse_f64 (f64_text x) = Some x
  /\ value_from_bytes (value_bytes (float_value x)) TyFloat = Ok (float_value x)
  /\ (forall b v, value_from_bytes b TyFloat = Ok v ->
        exists y, f64_canonical y = true /\ parse_f64 b = Some y /\ v = VFloat (f64_text y)
                  /\ value_from_bytes (value_bytes v) TyFloat = Ok v).
Proof.
  intros x C. split; [now apply parse_f64_text|]. split; [apply (value_bytes_round (float_value x)); now constructor|].
  intros b v H. cbn [value_from_bytes] in H. destruct (utf8_valid b); try discriminate.
  destruct (parse_f64 b) as [y|] eqn:P; try discriminate. injection H as <-. exists y.
  assert (f64_canonical y = true) by (eapply parse_f64_canonical; eauto).
  repeat split; auto. apply (value_bytes_round (VFloat (f64_text y))). now constructor.
Qed.
Print Assumptions C33_float_text.

Example C33_witness : value_from_bytes (lit "1.10e1") TyFloat = Ok (VFloat (lit "11"))
  /\ f64_text (FFin false 5404319552844596 (-54)) = lit "0.30000000000000004"
  /\ f64_canonical (FFin false 5404319552844596 (-54)) = true.
Proof. repeat split; vm_compute; reflexivity. Qed.
