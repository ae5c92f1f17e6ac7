(** AES-256-GCM with nonces of any length (NIST SP 800-38D), executable.  Models the [aes-gcm] 0.10 functions
    [encrypt_in_place_detached] / [decrypt_in_place_detached] used by
    crates/lib/src/cryptography/cipher/aes256_gcm.rs:24-48. *)
From Verif.Model Require Export Bytes Aes.

Local Open Scope N_scope.

(** Multiplication in GF(2^128); bit 127 of the number is the first bit of the block. *)
Definition gf_poly : N := N.shiftl 0xe1 120.

Fixpoint gf_mul_loop (bits : nat) (x v z : N) : N :=
  match bits with
  | O => z
  | S i =>
      let z' := if N.testbit x (N.of_nat i) then N.lxor z v else z in
      let v' := if N.odd v then N.lxor (N.shiftr v 1) gf_poly else N.shiftr v 1 in
      gf_mul_loop i x v' z'
  end.
Definition gf_mul (x y : N) : N := gf_mul_loop 128 x y 0.

(** Zero padding to a multiple of sixteen bytes. *)
Definition pad16 (s : bytes) : bytes :=
  s ++ repeat x00 (Nat.modulo (Nat.sub 16 (Nat.modulo (List.length s) 16)) 16).

(** GHASH over a byte string (length a multiple of 16); [fuel] bounds the number of blocks. *)
Fixpoint ghash_loop (fuel : nat) (h acc : N) (s : bytes) : N :=
  match fuel with
  | O => acc
  | S fuel' =>
      match s with
      | [] => acc
      | _ => ghash_loop fuel' h (gf_mul (N.lxor acc (be_to_N (firstn 16 s))) h) (skipn 16 s)
      end
  end.
Definition ghash (h : N) (s : bytes) : N := ghash_loop (S (List.length s)) h 0 s.

Definition len64 (s : bytes) : bytes := N_to_be 8 (8 * blen s).

(** Counter block increment: the last 32 bits modulo 2^32. *)
Definition inc32 (j : N) : N :=
  let lo := N.land j 0xffffffff in N.lor (N.ldiff j 0xffffffff) (N.land (lo + 1) 0xffffffff).

(** Keystream of at least [n] bytes: one block for each sixteen bytes, starting at counter block [j]. *)
Fixpoint keystream (blocks : nat) (rks : list bytes) (j : N) : bytes :=
  match blocks with
  | O => []
  | S b => aes_block rks (N_to_be 16 j) ++ keystream b rks (inc32 j)
  end.
Definition nblocks (n : nat) : nat := Nat.div (n + 15) 16.

(** Pre-counter block. *)
Definition gcm_j0 (h : N) (nonce : bytes) : N :=
  if Nat.eqb (List.length nonce) 12 then be_to_N (nonce ++ [x00; x00; x00; x01])
  else ghash h (pad16 nonce ++ repeat x00 8 ++ len64 nonce).

(** CTR encryption (its own inverse). *)
Definition gcm_ctr (k nonce p : bytes) : bytes :=
  let rks := aes256_schedule k in
  let h := be_to_N (aes_block rks (repeat x00 16)) in
  let j0 := gcm_j0 h nonce in
  xor_bytes p (keystream (nblocks (List.length p)) rks (inc32 j0)).

(** Authentication tag of associated data [a] and ciphertext [c]. *)
Definition gcm_tag (k nonce a c : bytes) : bytes :=
  let rks := aes256_schedule k in
  let h := be_to_N (aes_block rks (repeat x00 16)) in
  let j0 := gcm_j0 h nonce in
  let s := ghash h (pad16 a ++ pad16 c ++ len64 a ++ len64 c) in
  N_to_be 16 (N.lxor s (be_to_N (aes_block rks (N_to_be 16 j0)))).

(** Length limits of the [aes-gcm] crate: A_MAX = P_MAX = 2^36 bytes, C_MAX = 2^36 + 16 bytes. *)
Definition gcm_max : N := 68719476736.
Definition gcm_cmax : N := 68719476752.

Definition gcm_encrypt (k nonce a p : bytes) : option (bytes * bytes) :=
  if (gcm_max <? blen p) || (gcm_max <? blen a) then None
  else let c := gcm_ctr k nonce p in Some (c, gcm_tag k nonce a c).

Definition gcm_decrypt (k nonce a c t : bytes) : option bytes :=
  if (gcm_cmax <? blen c) || (gcm_max <? blen a) then None
  else if bytes_eqb t (gcm_tag k nonce a c) then Some (gcm_ctr k nonce c) else None.
