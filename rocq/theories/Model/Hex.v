(** Upper-case hex as used for the MAC: crates/lib/src/file/metadata/mac/decrypted.rs:25-41,44-60 and the [hex] crate. *)
From Verif.Model Require Export Bytes.

Definition hex_digits : bytes := lit "0123456789ABCDEF".
Definition hex_char (n : N) : byte := nth (N.to_nat n) hex_digits "0"%byte.

(** hex::encode_upper. *)
Fixpoint hex_encode_upper (s : bytes) : bytes :=
  match s with
  | [] => []
  | x :: s' => hex_char (Byte.to_N x / 16) :: hex_char (Byte.to_N x mod 16) :: hex_encode_upper s'
  end.

(** Value of one hex digit, either case ([hex::decode] accepts both). *)
Definition hex_val (c : byte) : option N :=
  let n := Byte.to_N c in
  if in_range "0" "9" c then Some (n - 48)%N
  else if in_range "A" "F" c then Some (n - 55)%N
  else if in_range "a" "f" c then Some (n - 87)%N
  else None.

(** hex::decode: odd length and foreign digits are errors. *)
Fixpoint hex_decode (s : bytes) : option bytes :=
  match s with
  | [] => Some []
  | a :: b :: s' =>
      match hex_val a, hex_val b, hex_decode s' with
      | Some x, Some y, Some r => Some (byte_of_N (16 * x + y) :: r)
      | _, _, _ => None
      end
  | [_] => None
  end.
