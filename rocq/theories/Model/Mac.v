(** The message authentication code of a file.
    Models crates/lib/src/file/metadata/mac/{decrypted,encrypted_mac,mac_only_encrypted,saved_mac_nonce}.rs. *)
From Verif.Model Require Export MapCrypt Sha512 Hex.

(** mac/decrypted.rs:7-10 [MAC_ENCRYPTED_ONLY_INIT_BYTES]. *)
Definition mac_init_bytes : bytes :=
  [x8a; x3f; xd2; xad; x54; xce; x66; x52; x7b; x10; x34; xf3; xd1; x47; xbe; x0b;
   x0b; x97; x5b; x3b; xf4; x4f; x72; xc6; xfd; xad; xec; x81; x76; xf2; x7d; x69].

Section Mac.
  Context (re : regex_engine) (tp : tape).

  (** mac/decrypted.rs:75-95 [traverse_tree_recursive] and :58-73 [traverse_map_recursive]: the bytes given to the hasher,
      in order.  Successive [update]s are concatenation.  The rule is resolved with the whole key (line 68). *)
  Fixpoint mac_tree (only : bool) (r : resolved) (t : dtree) : bytes :=
    match t with
    | Seq l => flat_map (mac_tree only r) l
    | Map m => flat_map (fun kt => mac_tree only (step re r (fst kt)) (snd kt)) m
    | Null => []
    | Leaf v => if escapes r && only then [] else value_bytes v
    end.

  (** mac/decrypted.rs:58-73 at the root, :47-51. *)
  Definition mac_input (only : bool) (pc : option partial) (m : dmap) : bytes :=
    (if only then mac_init_bytes else [])
    ++ flat_map (fun kt => mac_tree only (step re (initial pc) (fst kt)) (snd kt)) m.

  (** mac_only_encrypted.rs:15 [unwrap_or_default]. *)
  Definition mac_only_flag (o : option bool) : bool := match o with Some b => b | None => false end.

  (** mac/decrypted.rs:44-53 [Mac::compute]: the stored MAC is the upper-case hex text of the digest. *)
  Definition compute_mac (only : option bool) (pc : option partial) (m : dmap) : bytes :=
    hex_encode_upper (sha512 (mac_input (mac_only_flag only) pc m)).

  (** mac/decrypted.rs:25-31 [FromStr]. *)
  Definition parse_mac (s : bytes) : outcome bytes :=
    match hex_decode s with Some _ => Ok s | None => Err EHex end.

  (** mac/decrypted.rs:33-41 [Display]. *)
  Definition mac_text (m : bytes) : outcome bytes := if utf8_valid m then Ok m else Panic.

  (** saved_mac_nonce.rs:4,11-16 [SavedMacNonce], [get_or_create]. *)
  Definition saved_mac_nonce := (bytes * bytes)%type.

  (** mac/decrypted.rs:116-141 [encrypt_impl]; [lm] is [LastModifiedDateTime::to_bytes]. *)
  Definition encrypt_mac (saved : option saved_mac_nonce) (mac key lm : bytes) (n : nat) : outcome (evalue * nat) :=
    let '(nonce, n') :=
      match saved with
      | Some (m0, nonce0) => if bytes_eqb m0 mac then (nonce0, n) else (draw_nonce tp n, S n)
      | None => (draw_nonce tp n, S n)
      end in
    let* ct := cipher_encrypt nonce key mac lm in
    Ok (EValue (fst ct) nonce (snd ct) TyStr, n').

  (** encrypted_mac.rs:38-53 [decrypt_impl]. *)
  Definition decrypt_mac (e : evalue) (key lm : bytes) : outcome (bytes * bytes) :=
    let* m := cipher_decrypt (ev_nonce e) key (ev_data e) lm (ev_tag e) in
    Ok (m, ev_nonce e).
End Mac.
