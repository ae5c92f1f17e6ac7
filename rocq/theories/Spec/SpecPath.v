(** The text of a path, for a path that need not be UTF-8 (C38). *)
From Verif.Model Require Import Bytes.
From Verif.Spec Require Export SpecValue.
Local Open Scope nat_scope.

(** The bytes of one character. *)
Definition char_bytes (c : bytes) : Prop := exists n, scalar n /\ c = utf8_encode n.
(** The beginning of a character, without its end. *)
Definition begun (p : bytes) : Prop := p <> [] /\ exists q, q <> [] /\ char_bytes (p ++ q).
(** Characters stay as they are.  Where no character begins, the longest beginning of one, or else a single byte, is replaced by U+FFFD
    (the Unicode standard, "substitution of maximal subparts"). *)
Inductive shown_as : bytes -> bytes -> Prop :=
| sh_end : shown_as [] []
| sh_char c s t : char_bytes c -> shown_as s t -> shown_as (c ++ s) (c ++ t)
| sh_piece p s t : (forall c r, char_bytes c -> p ++ s <> c ++ r) -> begun p \/ length p = 1 ->
    (forall q r, begun q -> p ++ s = q ++ r -> length q <= length p) -> shown_as s t -> shown_as (p ++ s) (utf8_encode 65533 ++ t).
