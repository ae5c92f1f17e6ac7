(** AES-256 block encryption (FIPS 197), executable.  Models [aes_gcm::aes::Aes256] behind
    crates/lib/src/cryptography/cipher/aes256_gcm.rs:9-13. *)
From Verif.Model Require Export Bytes.

Definition sbox (b : byte) : byte :=
  match b with
  | x00 => x63 | x01 => x7c | x02 => x77 | x03 => x7b | x04 => xf2 | x05 => x6b | x06 => x6f | x07 => xc5
  | x08 => x30 | x09 => x01 | x0a => x67 | x0b => x2b | x0c => xfe | x0d => xd7 | x0e => xab | x0f => x76
  | x10 => xca | x11 => x82 | x12 => xc9 | x13 => x7d | x14 => xfa | x15 => x59 | x16 => x47 | x17 => xf0
  | x18 => xad | x19 => xd4 | x1a => xa2 | x1b => xaf | x1c => x9c | x1d => xa4 | x1e => x72 | x1f => xc0
  | x20 => xb7 | x21 => xfd | x22 => x93 | x23 => x26 | x24 => x36 | x25 => x3f | x26 => xf7 | x27 => xcc
  | x28 => x34 | x29 => xa5 | x2a => xe5 | x2b => xf1 | x2c => x71 | x2d => xd8 | x2e => x31 | x2f => x15
  | x30 => x04 | x31 => xc7 | x32 => x23 | x33 => xc3 | x34 => x18 | x35 => x96 | x36 => x05 | x37 => x9a
  | x38 => x07 | x39 => x12 | x3a => x80 | x3b => xe2 | x3c => xeb | x3d => x27 | x3e => xb2 | x3f => x75
  | x40 => x09 | x41 => x83 | x42 => x2c | x43 => x1a | x44 => x1b | x45 => x6e | x46 => x5a | x47 => xa0
  | x48 => x52 | x49 => x3b | x4a => xd6 | x4b => xb3 | x4c => x29 | x4d => xe3 | x4e => x2f | x4f => x84
  | x50 => x53 | x51 => xd1 | x52 => x00 | x53 => xed | x54 => x20 | x55 => xfc | x56 => xb1 | x57 => x5b
  | x58 => x6a | x59 => xcb | x5a => xbe | x5b => x39 | x5c => x4a | x5d => x4c | x5e => x58 | x5f => xcf
  | x60 => xd0 | x61 => xef | x62 => xaa | x63 => xfb | x64 => x43 | x65 => x4d | x66 => x33 | x67 => x85
  | x68 => x45 | x69 => xf9 | x6a => x02 | x6b => x7f | x6c => x50 | x6d => x3c | x6e => x9f | x6f => xa8
  | x70 => x51 | x71 => xa3 | x72 => x40 | x73 => x8f | x74 => x92 | x75 => x9d | x76 => x38 | x77 => xf5
  | x78 => xbc | x79 => xb6 | x7a => xda | x7b => x21 | x7c => x10 | x7d => xff | x7e => xf3 | x7f => xd2
  | x80 => xcd | x81 => x0c | x82 => x13 | x83 => xec | x84 => x5f | x85 => x97 | x86 => x44 | x87 => x17
  | x88 => xc4 | x89 => xa7 | x8a => x7e | x8b => x3d | x8c => x64 | x8d => x5d | x8e => x19 | x8f => x73
  | x90 => x60 | x91 => x81 | x92 => x4f | x93 => xdc | x94 => x22 | x95 => x2a | x96 => x90 | x97 => x88
  | x98 => x46 | x99 => xee | x9a => xb8 | x9b => x14 | x9c => xde | x9d => x5e | x9e => x0b | x9f => xdb
  | xa0 => xe0 | xa1 => x32 | xa2 => x3a | xa3 => x0a | xa4 => x49 | xa5 => x06 | xa6 => x24 | xa7 => x5c
  | xa8 => xc2 | xa9 => xd3 | xaa => xac | xab => x62 | xac => x91 | xad => x95 | xae => xe4 | xaf => x79
  | xb0 => xe7 | xb1 => xc8 | xb2 => x37 | xb3 => x6d | xb4 => x8d | xb5 => xd5 | xb6 => x4e | xb7 => xa9
  | xb8 => x6c | xb9 => x56 | xba => xf4 | xbb => xea | xbc => x65 | xbd => x7a | xbe => xae | xbf => x08
  | xc0 => xba | xc1 => x78 | xc2 => x25 | xc3 => x2e | xc4 => x1c | xc5 => xa6 | xc6 => xb4 | xc7 => xc6
  | xc8 => xe8 | xc9 => xdd | xca => x74 | xcb => x1f | xcc => x4b | xcd => xbd | xce => x8b | xcf => x8a
  | xd0 => x70 | xd1 => x3e | xd2 => xb5 | xd3 => x66 | xd4 => x48 | xd5 => x03 | xd6 => xf6 | xd7 => x0e
  | xd8 => x61 | xd9 => x35 | xda => x57 | xdb => xb9 | xdc => x86 | xdd => xc1 | xde => x1d | xdf => x9e
  | xe0 => xe1 | xe1 => xf8 | xe2 => x98 | xe3 => x11 | xe4 => x69 | xe5 => xd9 | xe6 => x8e | xe7 => x94
  | xe8 => x9b | xe9 => x1e | xea => x87 | xeb => xe9 | xec => xce | xed => x55 | xee => x28 | xef => xdf
  | xf0 => x8c | xf1 => xa1 | xf2 => x89 | xf3 => x0d | xf4 => xbf | xf5 => xe6 | xf6 => x42 | xf7 => x68
  | xf8 => x41 | xf9 => x99 | xfa => x2d | xfb => x0f | xfc => xb0 | xfd => x54 | xfe => xbb | xff => x16
  end.

(** Multiplication by x in GF(2^8) modulo x^8+x^4+x^3+x+1. *)
Definition xtime (b : byte) : byte :=
  let '(b0, (b1, (b2, (b3, (b4, (b5, (b6, b7))))))) := Byte.to_bits b in
  Byte.of_bits (b7, (xorb b0 b7, (b1, (xorb b2 b7, (xorb b3 b7, (b4, (b5, b6))))))).

(** State: sixteen bytes, column by column. *)
Definition sub_bytes (s : bytes) : bytes := map sbox s.

Definition shift_rows (s : bytes) : bytes :=
  match s with
  | [s0; s1; s2; s3; s4; s5; s6; s7; s8; s9; s10; s11; s12; s13; s14; s15] =>
      [s0; s5; s10; s15; s4; s9; s14; s3; s8; s13; s2; s7; s12; s1; s6; s11]
  | _ => s
  end.

Definition mix_col (a b c d : byte) : bytes :=
  let t := byte_xor (byte_xor a b) (byte_xor c d) in
  [byte_xor a (byte_xor t (xtime (byte_xor a b)));
   byte_xor b (byte_xor t (xtime (byte_xor b c)));
   byte_xor c (byte_xor t (xtime (byte_xor c d)));
   byte_xor d (byte_xor t (xtime (byte_xor d a)))].

Fixpoint mix_columns (s : bytes) : bytes :=
  match s with
  | a :: b :: c :: d :: s' => mix_col a b c d ++ mix_columns s'
  | _ => s
  end.

(** Key expansion for Nk = 8: [prev] is the list of the last eight words (oldest first). *)
Definition sub_word (w : bytes) : bytes := map sbox w.
Definition rot_word (w : bytes) : bytes := match w with a :: r => r ++ [a] | [] => [] end.
Definition rcon (w : bytes) (rc : byte) : bytes := match w with a :: r => byte_xor a rc :: r | [] => [] end.

Fixpoint expand (n : nat) (i : nat) (rc : byte) (prev : list bytes) : list bytes :=
  match n with
  | O => []
  | S n' =>
      let t := last prev [] in
      let g := if Nat.eqb (Nat.modulo i 8) 0 then rcon (sub_word (rot_word t)) rc
               else if Nat.eqb (Nat.modulo i 8) 4 then sub_word t else t in
      let w := xor_bytes (hd [] prev) g in
      w :: expand n' (S i) (if Nat.eqb (Nat.modulo i 8) 0 then xtime rc else rc) (tl prev ++ [w])
  end.

Fixpoint key_words (n : nat) (k : bytes) : list bytes :=
  match n with O => [] | S n' => firstn 4 k :: key_words n' (skipn 4 k) end.

Fixpoint round_keys (n : nat) (ws : list bytes) : list bytes :=
  match n with O => [] | S n' => concat (firstn 4 ws) :: round_keys n' (skipn 4 ws) end.

(** Fifteen round keys of a 32-byte key. *)
Definition aes256_schedule (k : bytes) : list bytes :=
  let ws := key_words 8 k in round_keys 15 (ws ++ expand 52 8 x01 ws).

Fixpoint aes_rounds (rks : list bytes) (s : bytes) : bytes :=
  match rks with
  | [] => s
  | [rk] => xor_bytes (shift_rows (sub_bytes s)) rk
  | rk :: rks' => aes_rounds rks' (xor_bytes (mix_columns (shift_rows (sub_bytes s))) rk)
  end.

(** Encrypt one block with an expanded key. *)
Definition aes_block (rks : list bytes) (s : bytes) : bytes :=
  match rks with
  | [] => s
  | rk0 :: rks' => aes_rounds rks' (xor_bytes s rk0)
  end.
