(** Leaf values, their byte form, their encryption and the "ENC[...]" text.
    Models crates/lib/src/file/map/value/{core,variant,encrypted}.rs and the cryptography wrappers they use.
    The generic parameters are fixed to the only non-test instances, [AES256GCM] and [SHA512]. *)
From Verif.Model Require Export Bytes Utf8 Base64 IntText Float64 Gcm.

(** value/core.rs:5-11 [RopsValue]; a float is the text inside [RopsFloat] (core.rs:14-37). *)
Inductive value : Type :=
| VStr (s : bytes)
| VBool (b : bool)
| VInt (z : Z)
| VFloat (t : bytes).

(** value/variant.rs:4-13. *)
Inductive variant : Type := TyStr | TyBool | TyInt | TyFloat.

(** variant.rs:4-13, strum [AsRefStr]. *)
Definition variant_text (v : variant) : bytes :=
  match v with TyStr => lit "str" | TyBool => lit "bool" | TyInt => lit "int" | TyFloat => lit "float" end.

(** variant.rs:4-13, strum [EnumString] (exact, case-sensitive). *)
Definition parse_variant (s : bytes) : option variant :=
  if bytes_eqb s (lit "str") then Some TyStr
  else if bytes_eqb s (lit "bool") then Some TyBool
  else if bytes_eqb s (lit "int") then Some TyInt
  else if bytes_eqb s (lit "float") then Some TyFloat
  else None.

(** core.rs:99-108. *)
Definition variant_of (v : value) : variant :=
  match v with VStr _ => TyStr | VBool _ => TyBool | VInt _ => TyInt | VFloat _ => TyFloat end.

(** core.rs:20-24 [RopsFloat::from(f64)]. *)
Definition float_value (x : f64) : value := VFloat (f64_text x).

(** core.rs:26-30 [f64::from(RopsFloat)]; the [expect] is an explicit panic. *)
Definition float_of_text (t : bytes) : outcome f64 :=
  match parse_f64 t with Some x => Ok x | None => Panic end.

(** core.rs:40-41,61-71 [as_bytes]. *)
Definition value_bytes (v : value) : bytes :=
  match v with
  | VStr s => s
  | VBool true => lit "True"
  | VBool false => lit "False"
  | VInt z => int_text z
  | VFloat t => t
  end.

(** core.rs:73-84 [from_bytes]. *)
Definition value_from_bytes (b : bytes) (ty : variant) : outcome value :=
  match ty with
  | TyStr => if utf8_valid b then Ok (VStr b) else Err EUtf8
  | TyBool => if bytes_eqb b (lit "True") then Ok (VBool true)
              else if bytes_eqb b (lit "False") then Ok (VBool false)
              else Err EBoolean
  | TyInt => if utf8_valid b then
               match parse_i64 b with Some z => Ok (VInt z) | None => Err EInteger end
             else Err EUtf8
  | TyFloat => if utf8_valid b then
                 match parse_f64 b with Some x => Ok (float_value x) | None => Err EFloat end
               else Err EUtf8
  end.

(** Derived [PartialEq] of [RopsValue]: core.rs:5. *)
Definition value_eqb (a b : value) : bool :=
  match a, b with
  | VStr x, VStr y => bytes_eqb x y
  | VBool x, VBool y => Bool.eqb x y
  | VInt x, VInt y => Z.eqb x y
  | VFloat x, VFloat y => bytes_eqb x y
  | _, _ => false
  end.

(** encrypted.rs:8-14 [EncryptedRopsValue<AES256GCM>]; the nonce has 32 and the tag 16 bytes (see [wf_evalue] in Spec). *)
Record evalue : Type := EValue {
  ev_data : bytes;
  ev_nonce : bytes;
  ev_tag : bytes;
  ev_type : variant;
}.

(** cipher/aes256_gcm.rs:18 [NonceSize], :20 [AuthorizationTagSize], data_key.rs:10 [DataKeySize]. *)
Definition nonce_size : nat := 32.
Definition tag_size : nat := 16.
Definition key_size : nat := 32.

(** cipher/aes256_gcm.rs:24-33. *)
Definition cipher_encrypt (nonce key buf aad : bytes) : outcome (bytes * bytes) :=
  ok_or ECipher (gcm_encrypt key nonce aad buf).

(** cipher/aes256_gcm.rs:35-48. *)
Definition cipher_decrypt (nonce key buf aad tag : bytes) : outcome bytes :=
  ok_or ECipher (gcm_decrypt key nonce aad buf tag).

(** core.rs:43-59 [RopsValue::encrypt]. *)
Definition encrypt_value (v : value) (nonce key path : bytes) : outcome evalue :=
  let* ct := cipher_encrypt nonce key (value_bytes v) path in
  Ok (EValue (fst ct) nonce (snd ct) (variant_of v)).

(** encrypted.rs:37-50 [EncryptedRopsValue::decrypt]. *)
Definition decrypt_value (e : evalue) (key path : bytes) : outcome value :=
  let* p := cipher_decrypt (ev_nonce e) key (ev_data e) path (ev_tag e) in
  value_from_bytes p (ev_type e).

(** cipher/aes256_gcm.rs:16 [NAME]. *)
Definition cipher_name : bytes := lit "AES256_GCM".

(** encrypted.rs:53-65 [Display]. *)
Definition evalue_text (e : evalue) : bytes :=
  lit "ENC[" ++ cipher_name
  ++ lit ",data:" ++ encode_base64 (ev_data e)
  ++ lit ",iv:" ++ encode_base64 (ev_nonce e)
  ++ lit ",tag:" ++ encode_base64 (ev_tag e)
  ++ lit ",type:" ++ variant_text (ev_type e)
  ++ lit "]".

(** encrypted.rs:88-110: one component, [next().and_then(strip_prefix(..)).ok_or(Missing(..))]. *)
Definition component (prefix : bytes) (cs : list bytes) : outcome bytes :=
  match cs with
  | [] => Err EMissing
  | c :: _ => ok_or EMissing (strip_prefix prefix c)
  end.

(** encrypted.rs:67-119 [FromStr]. Components after the fifth are never looked at, as in the code. *)
Definition parse_evalue (s : bytes) : outcome evalue :=
  let* s1 := ok_or EMissing (strip_prefix (lit "ENC") s) in
  let* s2 := ok_or EMissing (strip_prefix (lit "[") s1) in
  let* s3 := ok_or EMissing (strip_suffix1 "]" s2) in
  let cs := split_on "," s3 in
  let* name := match cs with [] => Err EMissing | c :: _ => Ok c end in
  if negb (bytes_eqb name cipher_name) then Err EInvalidCipher
  else
    let cs1 := skipn 1 cs in
    let* d64 := component (lit "data:") cs1 in
    let* data := decode_base64_vec d64 in
    let cs2 := skipn 1 cs1 in
    let* n64 := component (lit "iv:") cs2 in
    let* nonce := decode_base64_slice nonce_size n64 in
    let cs3 := skipn 1 cs2 in
    let* t64 := component (lit "tag:") cs3 in
    let* tag := decode_base64_slice tag_size t64 in
    let cs4 := skipn 1 cs3 in
    let* ty := component (lit "type:") cs4 in
    let* v := ok_or EVariant (parse_variant ty) in
    Ok (EValue data nonce tag v).
