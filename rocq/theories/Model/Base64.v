(** Base64, standard alphabet.  Models crates/lib/src/base64utils.rs and the [base64] 0.22 engines
    STANDARD (padded encoder) and STANDARD_NO_PAD (decoder: no padding, no trailing bits). *)
From Verif.Model Require Export Bytes.

(** Six bits, least significant first. *)
Definition sextet := (bool * (bool * (bool * (bool * (bool * bool)))))%type.

Definition b64_alphabet : bytes :=
  lit "ABCDEFGHIJKLMNOPQRSTUVWXYZabcdefghijklmnopqrstuvwxyz0123456789+/".

Definition b2N (b : bool) : N := if b then 1%N else 0%N.
Definition sextet_val (s : sextet) : N :=
  let '(a, (b, (c, (d, (e, f))))) := s in
  (b2N a + 2 * (b2N b + 2 * (b2N c + 2 * (b2N d + 2 * (b2N e + 2 * b2N f)))))%N.
Definition sextet_of (n : N) : sextet :=
  (N.testbit n 0, (N.testbit n 1, (N.testbit n 2, (N.testbit n 3, (N.testbit n 4, N.testbit n 5)))))%N.

(** Symbol of a sextet and its inverse. *)
Definition b64_char (s : sextet) : byte := nth (N.to_nat (sextet_val s)) b64_alphabet "A"%byte.
Definition b64_val (c : byte) : option sextet :=
  let n := Byte.to_N c in
  if in_range "A" "Z" c then Some (sextet_of (n - 65))
  else if in_range "a" "z" c then Some (sextet_of (n - 97 + 26))
  else if in_range "0" "9" c then Some (sextet_of (n - 48 + 52))
  else if beqb c "+" then Some (sextet_of 62)
  else if beqb c "/" then Some (sextet_of 63)
  else None.

(** Bit regrouping: three bytes into four sextets and back (most significant bits first). *)
Definition sext1 (x : byte) : sextet :=
  let '(x0, (x1, (x2, (x3, (x4, (x5, (x6, x7))))))) := Byte.to_bits x in (x2, (x3, (x4, (x5, (x6, x7))))).
Definition sext2 (x y : byte) : sextet :=
  let '(x0, (x1, _)) := Byte.to_bits x in
  let '(y0, (y1, (y2, (y3, (y4, (y5, (y6, y7))))))) := Byte.to_bits y in (y4, (y5, (y6, (y7, (x0, x1))))).
Definition sext3 (y z : byte) : sextet :=
  let '(y0, (y1, (y2, (y3, _)))) := Byte.to_bits y in
  let '(z0, (z1, (z2, (z3, (z4, (z5, (z6, z7))))))) := Byte.to_bits z in (z6, (z7, (y0, (y1, (y2, y3))))).
Definition sext4 (z : byte) : sextet :=
  let '(z0, (z1, (z2, (z3, (z4, (z5, _)))))) := Byte.to_bits z in (z0, (z1, (z2, (z3, (z4, z5))))).

Definition byte1 (a b : sextet) : byte :=
  let '(a0, (a1, (a2, (a3, (a4, a5))))) := a in
  let '(b0, (b1, (b2, (b3, (b4, b5))))) := b in
  Byte.of_bits (b4, (b5, (a0, (a1, (a2, (a3, (a4, a5))))))).
Definition byte2 (b c : sextet) : byte :=
  let '(b0, (b1, (b2, (b3, (b4, b5))))) := b in
  let '(c0, (c1, (c2, (c3, (c4, c5))))) := c in
  Byte.of_bits (c2, (c3, (c4, (c5, (b0, (b1, (b2, b3))))))).
Definition byte3 (c d : sextet) : byte :=
  let '(c0, (c1, (c2, (c3, (c4, c5))))) := c in
  let '(d0, (d1, (d2, (d3, (d4, d5))))) := d in
  Byte.of_bits (d0, (d1, (d2, (d3, (d4, (d5, (c0, c1))))))).

(** Encoder without padding. *)
Fixpoint b64_encode_nopad (s : bytes) : bytes :=
  match s with
  | x :: y :: z :: s' =>
      b64_char (sext1 x) :: b64_char (sext2 x y) :: b64_char (sext3 y z) :: b64_char (sext4 z)
      :: b64_encode_nopad s'
  | [x; y] => [b64_char (sext1 x); b64_char (sext2 x y); b64_char (sext3 y x00)]
  | [x] => [b64_char (sext1 x); b64_char (sext2 x x00)]
  | [] => []
  end.

(** Number of padding symbols for an input length. *)
Definition b64_pad (n : nat) : bytes :=
  match Nat.modulo n 3 with
  | 1 => ["="; "="]%byte
  | 2 => ["="]%byte
  | _ => []
  end.

(** base64utils.rs:16-18 [encode_base64] (STANDARD). *)
Definition encode_base64 (s : bytes) : bytes := b64_encode_nopad s ++ b64_pad (List.length s).

(** Low bits that must be zero in a final partial quad (trailing bits are refused). *)
Definition low4_zero (s : sextet) : bool :=
  let '(a, (b, (c, (d, _)))) := s in negb (a || b || c || d).
Definition low2_zero (s : sextet) : bool :=
  let '(a, (b, _)) := s in negb (a || b).

(** Decoder of STANDARD_NO_PAD: [None] is any [DecodeError] (foreign symbol, bad length, trailing bits). *)
Fixpoint b64_decode_nopad (s : bytes) : option bytes :=
  match s with
  | a :: b :: c :: d :: s' =>
      match b64_val a, b64_val b, b64_val c, b64_val d, b64_decode_nopad s' with
      | Some va, Some vb, Some vc, Some vd, Some r => Some (byte1 va vb :: byte2 vb vc :: byte3 vc vd :: r)
      | _, _, _, _, _ => None
      end
  | [a; b; c] =>
      match b64_val a, b64_val b, b64_val c with
      | Some va, Some vb, Some vc => if low2_zero vc then Some [byte1 va vb; byte2 vb vc] else None
      | _, _, _ => None
      end
  | [a; b] =>
      match b64_val a, b64_val b with
      | Some va, Some vb => if low4_zero vb then Some [byte1 va vb] else None
      | _, _ => None
      end
  | [_] => None
  | [] => Some []
  end.

(** base64utils.rs:34-40, cryptography/encrypted_data.rs:12-19: decoding into a [Vec]. *)
Definition decode_base64_vec (s : bytes) : outcome bytes :=
  ok_or EBase64 (b64_decode_nopad (trim_end_c "=" s)).

(** base64utils.rs:42-49 used by cryptography/nonce.rs:31-38 and authorization_tag.rs:14-21: decoding into a zeroed array
    of [size] bytes with [decode_slice_unchecked].  Decoded data longer than the array panics; shorter data leaves the
    remaining bytes zero and is accepted.
    Simplification: if the text is both malformed and too long, the real engine may panic before it reports the
    malformed symbol; the model reports the error. *)
Definition decode_base64_slice (size : nat) (s : bytes) : outcome bytes :=
  match b64_decode_nopad (trim_end_c "=" s) with
  | None => Err EBase64
  | Some d => if Nat.ltb size (List.length d) then Panic
              else Ok (d ++ repeat x00 (size - List.length d))
  end.
