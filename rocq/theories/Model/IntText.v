(** Decimal text of [i64]: [ToString for i64] and [FromStr for i64] of the standard library,
    used by crates/lib/src/file/map/value/core.rs:68,81. *)
From Coq Require Import Decimal.
From Verif.Model Require Export Bytes.

Definition i64_min : Z := (-9223372036854775808)%Z.
Definition i64_max : Z := 9223372036854775807%Z.
Definition u64_max : Z := 18446744073709551615%Z.
Definition in_i64 (z : Z) : bool := (i64_min <=? z)%Z && (z <=? i64_max)%Z.

(** Decimal digits as text. *)
Fixpoint uint_text (d : Decimal.uint) : bytes :=
  match d with
  | Nil => []
  | D0 d' => "0"%byte :: uint_text d'
  | D1 d' => "1"%byte :: uint_text d'
  | D2 d' => "2"%byte :: uint_text d'
  | D3 d' => "3"%byte :: uint_text d'
  | D4 d' => "4"%byte :: uint_text d'
  | D5 d' => "5"%byte :: uint_text d'
  | D6 d' => "6"%byte :: uint_text d'
  | D7 d' => "7"%byte :: uint_text d'
  | D8 d' => "8"%byte :: uint_text d'
  | D9 d' => "9"%byte :: uint_text d'
  end.

(** Text as decimal digits; [None] on a foreign character. *)
Fixpoint text_uint (s : bytes) : option Decimal.uint :=
  match s with
  | [] => Some Nil
  | c :: s' =>
      match text_uint s' with
      | None => None
      | Some d =>
          if beqb c "0" then Some (D0 d) else if beqb c "1" then Some (D1 d)
          else if beqb c "2" then Some (D2 d) else if beqb c "3" then Some (D3 d)
          else if beqb c "4" then Some (D4 d) else if beqb c "5" then Some (D5 d)
          else if beqb c "6" then Some (D6 d) else if beqb c "7" then Some (D7 d)
          else if beqb c "8" then Some (D8 d) else if beqb c "9" then Some (D9 d)
          else None
      end
  end.

(** Decimal text of a natural number (no leading zeros; "0" for zero). *)
Definition N_text (n : N) : bytes := uint_text (N.to_uint n).

(** A non-empty digit string as a number (leading zeros allowed). *)
Definition text_N (s : bytes) : option N :=
  match s with [] => None | _ => option_map N.of_uint (text_uint s) end.

(** i64::to_string. *)
Definition int_text (z : Z) : bytes :=
  match z with
  | Z0 => lit "0"
  | Zpos p => N_text (Npos p)
  | Zneg p => "-"%byte :: N_text (Npos p)
  end.

(** str::parse::<i64>: optional single sign, at least one digit, only digits, in range. *)
Definition parse_i64 (s : bytes) : option Z :=
  let signed :=
    match s with
    | [] => None
    | c :: s' =>
        if beqb c "-" then option_map (fun n => (- Z.of_N n)%Z) (text_N s')
        else if beqb c "+" then option_map Z.of_N (text_N s')
        else option_map Z.of_N (text_N s)
    end in
  match signed with
  | Some z => if in_i64 z then Some z else None
  | None => None
  end.
