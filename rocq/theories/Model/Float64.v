(** IEEE-754 binary64 numbers and their text in the Rust standard library:
    [f64::to_string] (shortest digits that read back, never an exponent) and [str::parse::<f64>]
    (correctly rounded, ties to even).  Used by crates/lib/src/file/map/value/core.rs:14-37,82.
    Simplification: NaN payload and sign are not represented ("NaN" prints without sign in Rust). *)
From Verif.Model Require Export Bytes IntText.

(** [FFin neg m e] stands for (-1)^neg * m * 2^e. *)
Inductive f64 : Type :=
| FNaN
| FInf (neg : bool)
| FFin (neg : bool) (m : N) (e : Z).

Definition f64_canonical (x : f64) : bool :=
  match x with
  | FFin _ m e =>
      ((e =? -1074)%Z && (m <? 2 ^ 53)%N)
      || ((-1074 <? e)%Z && (e <=? 971)%Z && (2 ^ 52 <=? m)%N && (m <? 2 ^ 53)%N)
  | _ => true
  end.

Definition f64_finite (x : f64) : bool := match x with FFin _ _ _ => true | _ => false end.

Definition f64_eqb (x y : f64) : bool :=
  match x, y with
  | FNaN, FNaN => true
  | FInf a, FInf b => Bool.eqb a b
  | FFin a m e, FFin b m' e' => Bool.eqb a b && N.eqb m m' && Z.eqb e e'
  | _, _ => false
  end.

(** The [==] operator of Rust: NaN differs from everything, zeros of both signs are equal. *)
Definition f64_rust_eq (x y : f64) : bool :=
  match x, y with
  | FInf a, FInf b => Bool.eqb a b
  | FFin a m e, FFin b m' e' =>
      N.eqb m m' && Z.eqb e e' && (Bool.eqb a b || N.eqb m 0)
  | _, _ => false
  end.

(** num / (den * 2^e) rounded to an integer, ties to even. *)
Definition scaled (num den : N) (e : Z) : N * N :=
  match e with
  | Zneg p => (num * 2 ^ Npos p, den)%N
  | _ => (num, den * 2 ^ Z.to_N e)%N
  end.
Definition round_half_even (a b : N) : N :=
  let q := (a / b)%N in
  let r := (a mod b)%N in
  match (2 * r ?= b)%N with
  | Lt => q
  | Gt => (q + 1)%N
  | Eq => if N.even q then q else (q + 1)%N
  end.

(** floor (log2 (num / den)) for num, den > 0. *)
Definition ratio_log2 (num den : N) : Z :=
  let l := (Z.of_N (N.log2 num) - Z.of_N (N.log2 den))%Z in
  let '(a, b) := scaled num den l in
  if (a <? b)%N then (l - 1)%Z else l.

(** Nearest binary64 of (-1)^neg * num / den. *)
Definition round_ratio (neg : bool) (num den : N) : f64 :=
  if N.eqb num 0 then FFin neg 0 (-1074)
  else
    let e := Z.max (-1074) (ratio_log2 num den - 52) in
    let '(a, b) := scaled num den e in
    let q := round_half_even a b in
    let '(m, e') := if N.eqb q (2 ^ 53) then ((2 ^ 52)%N, (e + 1)%Z) else (q, e) in
    if (971 <? e')%Z then FInf neg else FFin neg m e'.

(** Nearest binary64 of (-1)^neg * digits * 10^k. *)
Definition dec_to_f64 (neg : bool) (digits : N) (k : Z) : f64 :=
  match k with
  | Zneg p => round_ratio neg digits (10 ^ Npos p)
  | _ => round_ratio neg (digits * 10 ^ Z.to_N k) 1
  end.

(** Longest prefix of decimal digits. *)
Fixpoint span_digits (s : bytes) : bytes * bytes :=
  match s with
  | c :: s' => if is_digit c then let '(d, r) := span_digits s' in (c :: d, r) else ([], s)
  | [] => ([], [])
  end.

Definition digits_N (d : bytes) : N :=
  match d with
  | [] => 0%N
  | _ => match text_N d with Some n => n | None => 0%N end
  end.

(** Optional exponent part; [None] if malformed. *)
Definition parse_exp (s : bytes) : option Z :=
  match s with
  | [] => Some 0%Z
  | c :: s' =>
      if beqb c "e" || beqb c "E" then
        let '(neg, body) :=
          match s' with
          | d :: s'' => if beqb d "-" then (true, s'') else if beqb d "+" then (false, s'') else (false, s')
          | [] => (false, [])
          end in
        let '(ds, rest) := span_digits body in
        match ds, rest with
        | _ :: _, [] => Some (if neg : bool then (- Z.of_N (digits_N ds))%Z else Z.of_N (digits_N ds))
        | _, _ => None
        end
      else None
  end.

(** Number without sign. *)
Definition parse_number (neg : bool) (s : bytes) : option f64 :=
  let '(ip, r) := span_digits s in
  let '(fp, r') :=
    match r with
    | c :: r1 => if beqb c "." then span_digits r1 else ([], r)
    | [] => ([], [])
    end in
  match ip ++ fp with
  | [] => None
  | _ =>
      match parse_exp r' with
      | None => None
      | Some x => Some (dec_to_f64 neg (digits_N (ip ++ fp)) (x - Z.of_nat (List.length fp)))
      end
  end.

Definition parse_unsigned (neg : bool) (s : bytes) : option f64 :=
  let l := to_lower s in
  if bytes_eqb l (lit "inf") || bytes_eqb l (lit "infinity") then Some (FInf neg)
  else if bytes_eqb l (lit "nan") then Some FNaN
  else parse_number neg s.

(** str::parse::<f64>. *)
Definition parse_f64 (s : bytes) : option f64 :=
  match s with
  | [] => None
  | c :: s' =>
      if beqb c "-" then parse_unsigned true s'
      else if beqb c "+" then parse_unsigned false s'
      else parse_unsigned false s
  end.

(** Remove trailing zeros of [d], adjusting the exponent. *)
Fixpoint strip_zeros (fuel : nat) (d : N) (k : Z) : N * Z :=
  match fuel with
  | O => (d, k)
  | S f => if N.eqb d 0 then (d, k)
           else if N.eqb (d mod 10) 0 then strip_zeros f (d / 10) (k + 1) else (d, k)
  end.

(** d * 10^k without exponent notation. *)
Definition positional (d : N) (k : Z) : bytes :=
  let t := N_text d in
  match k with
  | Zneg p =>
      let f := Pos.to_nat p in
      let n := List.length t in
      if Nat.ltb f n then firstn (n - f) t ++ "."%byte :: skipn (n - f) t
      else "0"%byte :: "."%byte :: repeat "0"%byte (f - n) ++ t
  | _ => t ++ repeat "0"%byte (Z.to_nat k)
  end.

(** x / 10^k as a fraction, for x = m * 2^e. *)
Definition over_pow10 (m : N) (e k : Z) : N * N :=
  let '(a, b) := match e with Zneg p => (m, 2 ^ Npos p)%N | _ => (m * 2 ^ Z.to_N e, 1)%N end in
  match k with
  | Zneg p => (a * 10 ^ Npos p, b)%N
  | _ => (a, b * 10 ^ Z.to_N k)%N
  end.

(** floor (log10 x), searched downwards from an upper estimate (20 candidates are far more than needed). *)
Fixpoint log10_search (fuel : nat) (m : N) (e k : Z) : Z :=
  match fuel with
  | O => k
  | S f => let '(a, b) := over_pow10 m e k in if (b <=? a)%N then k else log10_search f m e (k - 1)
  end.
Definition log10_floor (m : N) (e : Z) : Z :=
  let l2 := (Z.of_N (N.log2 m) + e + 1)%Z in          (* x < 2^l2 *)
  log10_search 20 m e (l2 * 30103 / 100000 + 2)%Z.

Definition reads_back (neg : bool) (m : N) (e : Z) (c : N * Z) : bool :=
  f64_eqb (dec_to_f64 neg (fst c) (snd c)) (FFin neg m e).

(** The two n-digit decimals around x, nearest first. *)
Definition candidates (m : N) (e p10 : Z) (n : nat) : list (N * Z) :=
  let k := (p10 - Z.of_nat n + 1)%Z in
  let '(a, b) := over_pow10 m e k in
  let lo := (a / b)%N in
  let r := (a mod b)%N in
  let lo' := strip_zeros 20 lo k in
  let hi' := strip_zeros 20 (lo + 1) k in
  if (2 * r <=? b)%N then [lo'; hi'] else [hi'; lo'].

(** Exact decimal expansion (always exists for binary64). *)
Definition exact_decimal (m : N) (e : Z) : N * Z :=
  match e with
  | Zneg p => (m * 5 ^ Npos p, e)%N
  | _ => (m * 2 ^ Z.to_N e, 0%Z)%N
  end.

(** The decimal with the fewest digits that reads back as x.  The search runs over 1..17 digits; seventeen always
    suffice for binary64, so the exact expansion at the end is a fall-back that keeps the function total. *)
Fixpoint shortest (ns : list nat) (neg : bool) (m : N) (e p10 : Z) : N * Z :=
  match ns with
  | [] => exact_decimal m e
  | n :: ns' =>
      match find (reads_back neg m e) (candidates m e p10 n) with
      | Some c => c
      | None => shortest ns' neg m e p10
      end
  end.

(** f64::to_string. *)
Definition f64_text (x : f64) : bytes :=
  match x with
  | FNaN => lit "NaN"
  | FInf false => lit "inf"
  | FInf true => lit "-inf"
  | FFin neg m e =>
      let body := if N.eqb m 0 then lit "0"
                  else let '(d, k) := shortest (seq 1 17) neg m e (log10_floor m e) in positional d k in
      if neg then "-"%byte :: body else body
  end.
