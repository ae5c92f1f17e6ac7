(** SHA-512 (FIPS 180-4), executable.  Models the [sha2] crate behind
    crates/lib/src/cryptography/hasher/sha512.rs:5-22 (DefaultHasher). *)
From Verif.Model Require Export Bytes.

Local Open Scope N_scope.

Definition w64 (n : N) : N := N.land n 0xffffffffffffffff.
Definition add64 (a b : N) : N := w64 (a + b).
Definition rotr (k n : N) : N := N.lor (N.shiftr n k) (w64 (N.shiftl n (64 - k))).

Definition sha512_k : list N :=
  [0x428a2f98d728ae22; 0x7137449123ef65cd; 0xb5c0fbcfec4d3b2f; 0xe9b5dba58189dbbc;
   0x3956c25bf348b538; 0x59f111f1b605d019; 0x923f82a4af194f9b; 0xab1c5ed5da6d8118;
   0xd807aa98a3030242; 0x12835b0145706fbe; 0x243185be4ee4b28c; 0x550c7dc3d5ffb4e2;
   0x72be5d74f27b896f; 0x80deb1fe3b1696b1; 0x9bdc06a725c71235; 0xc19bf174cf692694;
   0xe49b69c19ef14ad2; 0xefbe4786384f25e3; 0xfc19dc68b8cd5b5; 0x240ca1cc77ac9c65;
   0x2de92c6f592b0275; 0x4a7484aa6ea6e483; 0x5cb0a9dcbd41fbd4; 0x76f988da831153b5;
   0x983e5152ee66dfab; 0xa831c66d2db43210; 0xb00327c898fb213f; 0xbf597fc7beef0ee4;
   0xc6e00bf33da88fc2; 0xd5a79147930aa725; 0x6ca6351e003826f; 0x142929670a0e6e70;
   0x27b70a8546d22ffc; 0x2e1b21385c26c926; 0x4d2c6dfc5ac42aed; 0x53380d139d95b3df;
   0x650a73548baf63de; 0x766a0abb3c77b2a8; 0x81c2c92e47edaee6; 0x92722c851482353b;
   0xa2bfe8a14cf10364; 0xa81a664bbc423001; 0xc24b8b70d0f89791; 0xc76c51a30654be30;
   0xd192e819d6ef5218; 0xd69906245565a910; 0xf40e35855771202a; 0x106aa07032bbd1b8;
   0x19a4c116b8d2d0c8; 0x1e376c085141ab53; 0x2748774cdf8eeb99; 0x34b0bcb5e19b48a8;
   0x391c0cb3c5c95a63; 0x4ed8aa4ae3418acb; 0x5b9cca4f7763e373; 0x682e6ff3d6b2b8a3;
   0x748f82ee5defb2fc; 0x78a5636f43172f60; 0x84c87814a1f0ab72; 0x8cc702081a6439ec;
   0x90befffa23631e28; 0xa4506cebde82bde9; 0xbef9a3f7b2c67915; 0xc67178f2e372532b;
   0xca273eceea26619c; 0xd186b8c721c0c207; 0xeada7dd6cde0eb1e; 0xf57d4f7fee6ed178;
   0x6f067aa72176fba; 0xa637dc5a2c898a6; 0x113f9804bef90dae; 0x1b710b35131c471b;
   0x28db77f523047d84; 0x32caab7b40c72493; 0x3c9ebe0a15c9bebc; 0x431d67c49c100d4c;
   0x4cc5d4becb3e42b6; 0x597f299cfc657e2a; 0x5fcb6fab3ad6faec; 0x6c44198c4a475817].

Definition sha512_init : list N :=
  [0x6a09e667f3bcc908; 0xbb67ae8584caa73b; 0x3c6ef372fe94f82b; 0xa54ff53a5f1d36f1;
   0x510e527fade682d1; 0x9b05688c2b3e6c1f; 0x1f83d9abfb41bd6b; 0x5be0cd19137e2179].

Definition bsig0 (x : N) := N.lxor (rotr 28 x) (N.lxor (rotr 34 x) (rotr 39 x)).
Definition bsig1 (x : N) := N.lxor (rotr 14 x) (N.lxor (rotr 18 x) (rotr 41 x)).
Definition ssig0 (x : N) := N.lxor (rotr 1 x) (N.lxor (rotr 8 x) (N.shiftr x 7)).
Definition ssig1 (x : N) := N.lxor (rotr 19 x) (N.lxor (rotr 61 x) (N.shiftr x 6)).
Definition chf (x y z : N) := N.lxor (N.land x y) (N.land (N.lxor x 0xffffffffffffffff) z).
Definition majf (x y z : N) := N.lxor (N.land x y) (N.lxor (N.land x z) (N.land y z)).

(** Message schedule: [ws] holds the last sixteen words, oldest first; produces [n] further words. *)
Fixpoint schedule (n : nat) (ws : list N) : list N :=
  match n with
  | O => []
  | S n' =>
      match ws with
      | w0 :: w1 :: _ =>
          let w := add64 (add64 (ssig1 (nth 14 ws 0)) (nth 9 ws 0)) (add64 (ssig0 w1) w0) in
          w :: schedule n' (tl ws ++ [w])
      | _ => []
      end
  end.

(** One round. *)
Definition sha_round (st : list N) (kw : N) : list N :=
  match st with
  | [a; b; c; d; e; f; g; h] =>
      let t1 := add64 (add64 h (bsig1 e)) (add64 (chf e f g) kw) in
      let t2 := add64 (bsig0 a) (majf a b c) in
      [add64 t1 t2; a; b; c; add64 d t1; e; f; g]
  | _ => st
  end.

Fixpoint zip_add (a b : list N) : list N :=
  match a, b with x :: a', y :: b' => add64 x y :: zip_add a' b' | _, _ => [] end.

(** Compression of one 128-byte block given as sixteen words. *)
Definition compress (st ws : list N) : list N :=
  let ks := zip_add sha512_k (ws ++ schedule 64 ws) in
  zip_add st (fold_left sha_round ks st).

(** Group a byte string into 64-bit big-endian words; [fuel] bounds the number of words. *)
Fixpoint words64 (fuel : nat) (s : bytes) : list N :=
  match fuel with
  | O => []
  | S fuel' => match s with [] => [] | _ => be_to_N (firstn 8 s) :: words64 fuel' (skipn 8 s) end
  end.

Fixpoint blocks16 (fuel : nat) (ws : list N) : list (list N) :=
  match fuel with
  | O => []
  | S fuel' => match ws with [] => [] | _ => firstn 16 ws :: blocks16 fuel' (skipn 16 ws) end
  end.

(** Padding: 0x80, zeros up to 112 mod 128, 128-bit big-endian bit length. *)
Definition sha_pad (s : bytes) : bytes :=
  let n := List.length s in
  let z := Nat.modulo (Nat.sub 239 (Nat.modulo n 128)) 128 in
  s ++ x80 :: repeat x00 z ++ N_to_be 16 (8 * N.of_nat n).

Definition sha512 (s : bytes) : bytes :=
  let p := sha_pad s in
  let ws := words64 (S (List.length p)) p in
  flat_map (N_to_be 8) (fold_left compress (blocks16 (S (List.length ws)) ws) sha512_init).
