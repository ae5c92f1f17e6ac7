(** UTF-8 validity, [std::str::from_utf8] (used by crates/lib/src/file/map/value/core.rs:75,81,82).
    Well-formed byte sequences as in the Unicode standard, table 3-7, which is what std implements. *)
From Verif.Model Require Export Bytes.

Definition cont (b : byte) : bool := in_range x80 xbf b.

(** Two-byte, three-byte and four-byte leads with the admissible second byte. *)
Definition ok2 (b1 b2 : byte) : bool := in_range xc2 xdf b1 && cont b2.
Definition ok3 (b1 b2 : byte) : bool :=
  (beqb b1 xe0 && in_range xa0 xbf b2)
  || (in_range xe1 xec b1 && cont b2)
  || (beqb b1 xed && in_range x80 x9f b2)
  || (in_range xee xef b1 && cont b2).
Definition ok4 (b1 b2 : byte) : bool :=
  (beqb b1 xf0 && in_range x90 xbf b2)
  || (in_range xf1 xf3 b1 && cont b2)
  || (beqb b1 xf4 && in_range x80 x8f b2).

Fixpoint utf8_valid (s : bytes) : bool :=
  match s with
  | [] => true
  | b1 :: s1 =>
      if in_range x00 x7f b1 then utf8_valid s1 else
      match s1 with
      | [] => false
      | b2 :: s2 =>
          if ok2 b1 b2 then utf8_valid s2 else
          match s2 with
          | [] => false
          | b3 :: s3 =>
              if ok3 b1 b2 && cont b3 then utf8_valid s3 else
              match s3 with
              | [] => false
              | b4 :: s4 => if ok4 b1 b2 && cont b3 && cont b4 then utf8_valid s4 else false
              end
          end
      end
  end.
