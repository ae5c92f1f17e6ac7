(** Specification vocabulary for values and encrypted values.  It does not mention the parsing or encryption functions of the
    model; only the data types [value], [evalue], [variant] and byte strings. *)
From Coq Require Import ZArith NArith List.
From Verif.Model Require Import Bytes Float64 Value.

Local Open Scope nat_scope.

(** UTF-8 by its definition: the concatenation of the encodings of Unicode scalar values. *)
Definition scalar (c : N) : Prop := (c < 0xD800 \/ (0xE000 <= c /\ c < 0x110000))%N.

Definition bN (n : N) : byte := match Byte.of_N n with Some b => b | None => x00 end.

Definition utf8_encode (c : N) : bytes :=
  (if c <? 0x80 then [bN c]
   else if c <? 0x800 then [bN (0xC0 + c / 64); bN (0x80 + c mod 64)]
   else if c <? 0x10000 then [bN (0xE0 + c / 4096); bN (0x80 + c / 64 mod 64); bN (0x80 + c mod 64)]
   else [bN (0xF0 + c / 262144); bN (0x80 + c / 4096 mod 64); bN (0x80 + c / 64 mod 64); bN (0x80 + c mod 64)])%N.

Definition utf8_text (s : bytes) : Prop := exists cs, Forall scalar cs /\ s = flat_map utf8_encode cs.

(** The values a Rust [RopsValue] can hold: strings are UTF-8, integers are [i64], the text of a float is what
    [f64::to_string] gives (the field of [RopsFloat] is private and only built by [From<f64>], value/core.rs:17-24). *)
Inductive rust_value : value -> Prop :=
| rv_str s : utf8_text s -> rust_value (VStr s)
| rv_bool b : rust_value (VBool b)
| rv_int z : (- 2 ^ 63 <= z < 2 ^ 63)%Z -> rust_value (VInt z)
| rv_float x : f64_canonical x = true -> rust_value (VFloat (f64_text x)).

Definition type_of (v : value) : variant :=
  match v with VStr _ => TyStr | VBool _ => TyBool | VInt _ => TyInt | VFloat _ => TyFloat end.

Definition type_name (t : variant) : bytes :=
  match t with TyStr => lit "str" | TyBool => lit "bool" | TyInt => lit "int" | TyFloat => lit "float" end.

(** The array types of the Rust struct: a nonce has 32 bytes, a tag 16. *)
Definition rust_evalue (e : evalue) : Prop := length (ev_nonce e) = 32 /\ length (ev_tag e) = 16.

(** AES-GCM takes at most 2^36 bytes of plaintext and of associated data. *)
Definition gcm_fits (s : bytes) : Prop := (N.of_nat (length s) <= 2 ^ 36)%N.

(** Base64 by its definition: the bits of the bytes, most significant first, filled up with zeros to a multiple of six, in
    groups of six that name positions in the alphabet; any number of "=" may follow. *)
Definition alphabet : bytes := lit "ABCDEFGHIJKLMNOPQRSTUVWXYZabcdefghijklmnopqrstuvwxyz0123456789+/".
Definition eight_bits (b : byte) : list bool := map (N.testbit (Byte.to_N b)) [7; 6; 5; 4; 3; 2; 1; 0]%N.
Definition six_bits (n : nat) : list bool := map (N.testbit (N.of_nat n)) [5; 4; 3; 2; 1; 0]%N.
Inductive symbols : bytes -> list bool -> Prop :=
| sym_nil : symbols [] []
| sym_cons i c t bits : nth_error alphabet i = Some c -> symbols t bits -> symbols (c :: t) (six_bits i ++ bits).
Definition base64_of (d t : bytes) : Prop := exists z, z < 6 /\ symbols t (flat_map eight_bits d ++ repeat false z).
Definition is_base64_text (t d : bytes) : Prop := exists t' k, base64_of d t' /\ t = t' ++ repeat "="%byte k.

(** Zero padding to a fixed size, which is what the fixed-size decoder does. *)
Definition padded (n : nat) (d s : bytes) : Prop := length d <= n /\ s = d ++ repeat x00 (n - length d).
