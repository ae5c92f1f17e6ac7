(** Byte strings and the [str] primitives of the Rust standard library that rops uses.
    A Rust [String]/[&str]/[Vec<u8>] is a [list byte]; UTF-8 validity is a separate predicate (Utf8.v).
    All separators used by rops are ASCII, so working on bytes instead of [char]s is exact. *)
From Coq Require Export Strings.String Strings.Byte List Bool NArith ZArith Lia.
From Verif.Model Require Export Outcome.
Export ListNotations.

Definition bytes := list byte.

(** String literals. *)
Definition lit (s : string) : bytes := list_byte_of_string s.
Arguments lit s%string.

Definition beqb (a b : byte) : bool := Byte.eqb a b.

(** [==] on strings. *)
Fixpoint bytes_eqb (a b : bytes) : bool :=
  match a, b with
  | [], [] => true
  | x :: a', y :: b' => beqb x y && bytes_eqb a' b'
  | _, _ => false
  end.

(** [str::strip_prefix]. *)
Fixpoint strip_prefix (p s : bytes) : option bytes :=
  match p, s with
  | [], _ => Some s
  | x :: p', y :: s' => if beqb x y then strip_prefix p' s' else None
  | _ :: _, [] => None
  end.

(** [str::strip_suffix] with a one-byte pattern. *)
Fixpoint strip_suffix1 (c : byte) (s : bytes) : option bytes :=
  match s with
  | [] => None
  | [x] => if beqb x c then Some [] else None
  | x :: s' => option_map (cons x) (strip_suffix1 c s')
  end.

(** [str::ends_with] / [str::starts_with] with a string pattern. *)
Definition starts_with (p s : bytes) : bool :=
  match strip_prefix p s with Some _ => true | None => false end.
Definition ends_with (p s : bytes) : bool := starts_with (rev p) (rev s).

(** [str::split] with a one-byte pattern: always at least one piece. *)
Fixpoint split_on (c : byte) (s : bytes) : list bytes :=
  match s with
  | [] => [[]]
  | x :: s' =>
      if beqb x c then [] :: split_on c s'
      else match split_on c s' with
           | [] => [[x]]                          (* unreachable *)
           | piece :: rest => (x :: piece) :: rest
           end
  end.

(** [Iterator::last] on the pieces. *)
Definition last_piece (c : byte) (s : bytes) : bytes := last (split_on c s) [].

(** [str::split_once] with a one-byte pattern. *)
Fixpoint split_once (c : byte) (s : bytes) : option (bytes * bytes) :=
  match s with
  | [] => None
  | x :: s' =>
      if beqb x c then Some ([], s')
      else match split_once c s' with
           | Some (a, b) => Some (x :: a, b)
           | None => None
           end
  end.

(** [str::rsplit_once] with a one-byte pattern. *)
Definition rsplit_once (c : byte) (s : bytes) : option (bytes * bytes) :=
  match split_once c (rev s) with
  | Some (a, b) => Some (rev b, rev a)
  | None => None
  end.

(** [str::trim_end_matches] / [trim_start_matches] with a one-byte pattern. *)
Fixpoint trim_start_c (c : byte) (s : bytes) : bytes :=
  match s with
  | x :: s' => if beqb x c then trim_start_c c s' else s
  | [] => []
  end.
Definition trim_end_c (c : byte) (s : bytes) : bytes := rev (trim_start_c c (rev s)).

(** Join pieces with a one-byte separator. *)
Fixpoint join_with (c : byte) (l : list bytes) : bytes :=
  match l with
  | [] => []
  | [x] => x
  | x :: l' => x ++ c :: join_with c l'
  end.

(** ASCII case mapping ([str::to_ascii_lowercase], [to_ascii_uppercase]). *)
Definition byte_add (b : byte) (d : N) : byte :=
  match Byte.of_N (Byte.to_N b + d) with Some r => r | None => b end.
Definition byte_sub (b : byte) (d : N) : byte :=
  match Byte.of_N (Byte.to_N b - d) with Some r => r | None => b end.
Definition in_range (lo hi b : byte) : bool :=
  (Byte.to_N lo <=? Byte.to_N b)%N && (Byte.to_N b <=? Byte.to_N hi)%N.
Definition lower1 (b : byte) : byte := if in_range "A" "Z" b then byte_add b 32 else b.
Definition upper1 (b : byte) : byte := if in_range "a" "z" b then byte_sub b 32 else b.
Definition to_lower (s : bytes) : bytes := map lower1 s.
Definition to_upper (s : bytes) : bytes := map upper1 s.

Definition is_digit (b : byte) : bool := in_range "0" "9" b.

(** Length as [N]: all comparisons with large limits are made in binary. *)
Definition blen (s : bytes) : N := N.of_nat (List.length s).

(** Exclusive or of two bytes. *)
Definition byte_xor (a b : byte) : byte :=
  let '(a0, (a1, (a2, (a3, (a4, (a5, (a6, a7))))))) := Byte.to_bits a in
  let '(b0, (b1, (b2, (b3, (b4, (b5, (b6, b7))))))) := Byte.to_bits b in
  Byte.of_bits (xorb a0 b0, (xorb a1 b1, (xorb a2 b2, (xorb a3 b3,
               (xorb a4 b4, (xorb a5 b5, (xorb a6 b6, xorb a7 b7))))))).

(** Pointwise xor, as long as the first argument; a short second argument is an error of the caller
    and leaves the rest unchanged (the keystream is always long enough in Gcm.v). *)
Fixpoint xor_bytes (a k : bytes) : bytes :=
  match a, k with
  | x :: a', y :: k' => byte_xor x y :: xor_bytes a' k'
  | _, _ => a
  end.

(** Big-endian conversions between bytes and numbers. *)
Definition be_to_N (s : bytes) : N := fold_left (fun acc b => (acc * 256 + Byte.to_N b)%N) s 0%N.
Definition byte_of_N (n : N) : byte :=
  match Byte.of_N (n mod 256) with Some b => b | None => x00 end.
Fixpoint N_to_be (len : nat) (n : N) : bytes :=
  match len with
  | O => []
  | S len' => N_to_be len' (n / 256) ++ [byte_of_N n]
  end.
