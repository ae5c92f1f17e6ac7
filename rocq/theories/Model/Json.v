(** JSON text as written and read by serde_json 1.0.128 (Cargo.lock; features [preserve_order], without [float_roundtrip],
    [arbitrary_precision] and [unbounded_depth]): crates/lib/src/file/format/json/mod.rs:21-27,
    [serde_json::to_string_pretty] and [serde_json::from_str].
    The crate is outside /repo; what is used of it is written down here from its documentation and source. *)
From Verif.Model Require Export Document.
Open Scope byte_scope.

(** * Writing *)

(** [format_escaped_str]: the two-character escapes, [\u00xx] for the other control characters, everything else as it is. *)
Definition hex_lower (n : N) : byte := nth (N.to_nat n) (lit "0123456789abcdef") "0".
Definition json_escape (b : byte) : bytes :=
  if beqb b x22 then ["\"; x22]
  else if beqb b "\" then ["\"; "\"]
  else if beqb b x08 then ["\"; "b"]
  else if beqb b x0c then ["\"; "f"]
  else if beqb b x0a then ["\"; "n"]
  else if beqb b x0d then ["\"; "r"]
  else if beqb b x09 then ["\"; "t"]
  else if in_range x00 x1f b then ["\"; "u"; "0"; "0"; hex_lower (Byte.to_N b / 16); hex_lower (Byte.to_N b mod 16)]
  else [b].
Definition json_string (s : bytes) : bytes := x22 :: flat_map json_escape s ++ [x22].

(** Floats are printed by ryu: the shortest digits [d] with exponent [k], positional notation when the decimal point is near, else
    scientific notation. *)
Definition ryu_digits (d : N) (k : Z) : bytes :=
  let t := N_text d in
  let n := List.length t in
  let kk := (Z.of_nat n + k)%Z in
  if ((0 <=? k) && (kk <=? 16))%Z then t ++ repeat "0" (Z.to_nat k) ++ lit ".0"
  else if ((0 <? kk) && (kk <=? 16))%Z then firstn (Z.to_nat kk) t ++ "." :: skipn (Z.to_nat kk) t
  else if ((-5 <? kk) && (kk <=? 0))%Z then lit "0." ++ repeat "0" (Z.to_nat (- kk)) ++ t
  else if (n =? 1)%nat then t ++ "e" :: int_text (kk - 1)
  else firstn 1 t ++ "." :: skipn 1 t ++ "e" :: int_text (kk - 1).
Definition ryu_text (neg : bool) (m : N) (e : Z) : bytes :=
  let body := if N.eqb m 0 then lit "0.0"
              else let '(d, k) := shortest (seq 1 17) neg m e (log10_floor m e) in ryu_digits d k in
  if neg then "-" :: body else body.
(** [serialize_f64]: [null] for what is not finite. *)
Definition json_number (n : num) : bytes :=
  match n with
  | NInt z => int_text z
  | NFlt (FFin neg m e) => ryu_text neg m e
  | NFlt _ => lit "null"
  end.

(** [PrettyFormatter]: two spaces for each level; nothing between the brackets of an empty map or array. *)
Definition newline (level : nat) : bytes := x0a :: repeat " " (2 * level).
Fixpoint comma_separated (l : list bytes) : bytes :=
  match l with [] => [] | [x] => x | x :: l' => x ++ "," :: comma_separated l' end.
Definition json_block (left right : byte) (level : nat) (items : list bytes) : bytes :=
  match items with
  | [] => [left; right]
  | _ => left :: comma_separated (map (fun x => newline (S level) ++ x) items) ++ newline level ++ [right]
  end.
(** [MapKeySerializer]: a string, or an error. *)
Definition json_key (k : fvalue) : outcome bytes := match k with FStr s => Ok (json_string s) | _ => Err ESerialization end.
Fixpoint json_value (level : nat) (v : fvalue) : outcome bytes :=
  match v with
  | FMap m =>
      let* l := mapM (fun kv =>
                  let* k := json_key (fst kv) in
                  let* x := json_value (S level) (snd kv) in
                  Ok (k ++ lit ": " ++ x)) m in
      Ok (json_block "{" "}" level l)
  | FSeq l => let* l' := mapM (json_value (S level)) l in Ok (json_block "[" "]" level l')
  | FStr s => Ok (json_string s)
  | FBool true => Ok (lit "true")
  | FBool false => Ok (lit "false")
  | FNum n => Ok (json_number n)
  | FNull => Ok (lit "null")
  | FTagged _ _ | FDate _ => Err ESerialization        (* not JSON values *)
  end.
(** Rust strings are UTF-8, so the text is too; in the model the strings are checked here. *)
Definition json_write (es : fmap) : outcome bytes :=
  let* s := json_value 0 (FMap es) in if utf8_valid s then Ok s else Err ESerialization.

(** * Reading *)

Definition json_fail {A} : outcome A := Err ESerialization.

(** [parse_whitespace]. *)
Definition json_space (b : byte) : bool := beqb b " " || beqb b x0a || beqb b x09 || beqb b x0d.
Fixpoint skip_space (s : bytes) : bytes :=
  match s with b :: s' => if json_space b then skip_space s' else s | [] => [] end.

(** [decode_hex_escape], [parse_escape]: a surrogate must be followed by the second half. *)
Definition hex4 (s : bytes) : option (N * bytes) :=
  match s with
  | a :: b :: c :: d :: s' =>
      match hex_val a, hex_val b, hex_val c, hex_val d with
      | Some x, Some y, Some z, Some w => Some ((((x * 16 + y) * 16 + z) * 16 + w)%N, s')
      | _, _, _, _ => None
      end
  | _ => None
  end.
(** [char::encode_utf8]. *)
Definition encode_char (c : N) : bytes :=
  (if c <? 128 then [byte_of_N c]
   else if c <? 2048 then [byte_of_N (192 + c / 64); byte_of_N (128 + c mod 64)]
   else if c <? 65536 then [byte_of_N (224 + c / 4096); byte_of_N (128 + c / 64 mod 64); byte_of_N (128 + c mod 64)]
   else [byte_of_N (240 + c / 262144); byte_of_N (128 + c / 4096 mod 64); byte_of_N (128 + c / 64 mod 64); byte_of_N (128 + c mod 64)])%N.
Definition unicode_escape (s : bytes) : outcome (bytes * bytes) :=
  match hex4 s with
  | None => json_fail
  | Some (n, s1) =>
      if ((56320 <=? n) && (n <=? 57343))%N then json_fail                     (* a trailing surrogate *)
      else if ((55296 <=? n) && (n <=? 56319))%N then
        match strip_prefix (lit "\u") s1 with
        | None => json_fail
        | Some s2 =>
            match hex4 s2 with
            | Some (n2, s3) =>
                if ((56320 <=? n2) && (n2 <=? 57343))%N then Ok (encode_char (65536 + (n - 55296) * 1024 + (n2 - 56320))%N, s3) else json_fail
            | None => json_fail
            end
        end
      else Ok (encode_char n, s1)
  end.
Definition simple_escape (b : byte) : option byte :=
  if beqb b x22 then Some x22 else if beqb b "\" then Some "\" else if beqb b "/" then Some "/"
  else if beqb b "b" then Some x08 else if beqb b "f" then Some x0c else if beqb b "n" then Some x0a
  else if beqb b "r" then Some x0d else if beqb b "t" then Some x09 else None.
(** [parse_str] after the opening quote: the content and what follows the closing quote.  [fuel] bounds the length. *)
Fixpoint read_string (fuel : nat) (s : bytes) : outcome (bytes * bytes) :=
  match fuel, s with
  | S fuel', b :: s' =>
      if beqb b x22 then Ok ([], s')
      else if beqb b "\" then
        match s' with
        | [] => json_fail
        | c :: s'' =>
            match simple_escape c with
            | Some x => let* r := read_string fuel' s'' in Ok (x :: fst r, snd r)
            | None =>
                if beqb c "u" then
                  let* u := unicode_escape s'' in
                  let* r := read_string fuel' (snd u) in Ok (fst u ++ fst r, snd r)
                else json_fail
            end
        end
      else if in_range x00 x1f b then json_fail
      else let* r := read_string fuel' s' in Ok (b :: fst r, snd r)
  | _, _ => json_fail
  end.

(** ** Numbers *)

(** Arithmetic of binary64: every result is the nearest number to the exact one. *)
Definition u64_to_f64 (n : N) : f64 := round_ratio false n 1.
Definition as_ratio (m : N) (e : Z) : N * N := match e with Zneg p => (m, 2 ^ Npos p)%N | _ => (m * 2 ^ Z.to_N e, 1)%N end.
Definition mul_f64 (x y : f64) : f64 :=
  match x, y with
  | FFin s m e, FFin s' m' e' => let '(a, b) := as_ratio (m * m') (e + e') in round_ratio (xorb s s') a b
  | _, _ => FNaN                                                      (* not reached: operands are finite *)
  end.
Definition div_f64 (x y : f64) : f64 :=
  match x, y with
  | FFin s m e, FFin s' m' e' =>
      let '(a, b) := as_ratio m (e - e') in round_ratio (xorb s s') a (b * m')
  | _, _ => FNaN
  end.
Definition neg_f64 (x : f64) : f64 :=
  match x with FFin s m e => FFin (negb s) m e | FInf s => FInf (negb s) | FNaN => FNaN end.
Definition is_zero (x : f64) : bool := match x with FFin _ m _ => N.eqb m 0 | _ => false end.

(** [POW10], the constants 1e0 to 1e308. *)
Definition pow10_f64 (k : N) : f64 := round_ratio false (10 ^ k) 1.
(** [f64_from_parts].  [fuel] bounds the number of divisions by 1e308. *)
Fixpoint scale_f64 (fuel : nat) (x : f64) (e : Z) : outcome f64 :=
  if (Z.abs e <=? 308)%Z then
    if (0 <=? e)%Z then
      let y := mul_f64 x (pow10_f64 (Z.to_N e)) in if f64_finite y then Ok y else json_fail    (* [NumberOutOfRange] *)
    else Ok (div_f64 x (pow10_f64 (Z.to_N (- e))))
  else if is_zero x then Ok x
  else if (0 <=? e)%Z then json_fail
  else match fuel with
       | O => Ok x                                    (* not reached: after three divisions [x] is zero *)
       | S fuel' => scale_f64 fuel' (div_f64 x (pow10_f64 308)) (e + 308)
       end.
Definition float_from_parts (positive : bool) (significand : N) (e : Z) : outcome f64 :=
  let* x := scale_f64 10 (u64_to_f64 significand) e in Ok (if positive then x else neg_f64 x).

Definition u64_limit : N := 18446744073709551615.
Definition digit_val (b : byte) : N := (Byte.to_N b - 48)%N.
(** Digits are added to the significand while it fits into 64 bits: [overflow!]. *)
Definition push_digit (significand : N) (b : byte) : option N :=
  let n := (significand * 10 + digit_val b)%N in if (n <=? u64_limit)%N then Some n else None.

(** Exponents are 32 bit integers; one that does not fit gives zero or an error ([parse_exponent_overflow]). *)
Definition i32_max : N := 2147483647.
Definition clamp_i32 (z : Z) : Z := Z.max (-2147483648) (Z.min 2147483647 z).
(** [parse_exponent], after the letter e. *)
Definition read_exponent (positive : bool) (significand : N) (start : Z) (s : bytes) : outcome (f64 * bytes) :=
  let '(plus, s1) := match s with
                     | b :: s' => if beqb b "+" then (true, s') else if beqb b "-" then (false, s') else (true, s)
                     | [] => (true, [])
                     end in
  let '(ds, rest) := span_digits s1 in
  match ds with
  | [] => json_fail
  | _ =>
      let x := digits_N ds in
      if (i32_max <? x)%N then
        if negb (significand =? 0)%N && plus then json_fail else Ok (FFin (negb positive) 0 (-1074), rest)
      else
        let e := clamp_i32 (if plus then start + Z.of_N x else start - Z.of_N x) in
        let* y := float_from_parts positive significand e in Ok (y, rest)
  end.
Definition at_exponent (s : bytes) : option bytes :=
  match s with b :: s' => if beqb b "e" || beqb b "E" then Some s' else None | [] => None end.
(** The end of a float: an exponent, or nothing. *)
Definition finish_float (positive : bool) (significand : N) (e : Z) (s : bytes) : outcome (f64 * bytes) :=
  match at_exponent s with
  | Some s' => read_exponent positive significand e s'
  | None => let* y := float_from_parts positive significand e in Ok (y, s)
  end.
(** [parse_decimal], after the point: digits that do not fit are skipped ([parse_decimal_overflow]). *)
Fixpoint take_decimals (significand : N) (e : Z) (ds : bytes) : N * Z :=
  match ds with
  | [] => (significand, e)
  | b :: ds' => match push_digit significand b with
                | Some n => take_decimals n (e - 1) ds'
                | None => (significand, e)
                end
  end.
Definition read_decimals (positive : bool) (significand : N) (start : Z) (s : bytes) : outcome (f64 * bytes) :=
  let '(ds, rest) := span_digits s in
  match ds with
  | [] => json_fail
  | _ => let '(n, e) := take_decimals significand start ds in finish_float positive n e rest
  end.
(** After the integer part. *)
Definition finish_number (positive : bool) (significand : N) (e : Z) (is_integer : bool) (s : bytes) : outcome (num * bytes) :=
  match s with
  | b :: s' =>
      if beqb b "." then let* r := read_decimals positive significand e s' in Ok (NFlt (fst r), snd r)
      else if beqb b "e" || beqb b "E" then let* r := read_exponent positive significand e s' in Ok (NFlt (fst r), snd r)
      else if is_integer then
        (if positive then Ok (NInt (Z.of_N significand), s)
         else if (1 <=? significand)%N && (significand <=? 9223372036854775808)%N then Ok (NInt (- Z.of_N significand), s)
         else Ok (NFlt (neg_f64 (u64_to_f64 significand)), s))
      else let* y := float_from_parts positive significand e in Ok (NFlt y, s)
  | [] =>
      if is_integer then
        (if positive then Ok (NInt (Z.of_N significand), s)
         else if (1 <=? significand)%N && (significand <=? 9223372036854775808)%N then Ok (NInt (- Z.of_N significand), s)
         else Ok (NFlt (neg_f64 (u64_to_f64 significand)), s))
      else let* y := float_from_parts positive significand e in Ok (NFlt y, s)
  end.
(** [parse_integer], [parse_long_integer]: digits that do not fit into 64 bits count as powers of ten. *)
Fixpoint take_integer (significand : N) (ds : bytes) : N * bytes :=
  match ds with
  | [] => (significand, [])
  | b :: ds' => match push_digit significand b with
                | Some n => take_integer n ds'
                | None => (significand, ds)
                end
  end.
(** [parse_any_number], after the sign.  No leading zeros. *)
Definition read_number (positive : bool) (s : bytes) : outcome (num * bytes) :=
  let '(ds, rest) := span_digits s in
  match ds with
  | [] => json_fail
  | b :: ds' =>
      if beqb b "0" && negb (bytes_eqb ds' []) then json_fail
      else
        let '(n, more) := take_integer 0 ds in
        finish_number positive n (Z.of_nat (List.length more)) (bytes_eqb more []) rest
  end.

(** ** Values *)

(** [parse_ident]. *)
Definition read_word (w : string) (v : fvalue) (s : bytes) : outcome (fvalue * bytes) :=
  match strip_prefix (lit w) s with Some s' => Ok (v, s') | None => json_fail end.

Section Values.
  Context (value : bytes -> outcome (fvalue * bytes)).

  (** [SeqAccess], after "[" and possibly elements; no trailing comma. *)
  Fixpoint read_elements (fuel : nat) (s : bytes) : outcome (list fvalue * bytes) :=
    match fuel with
    | O => json_fail
    | S fuel' =>
        let* v := value s in
        match skip_space (snd v) with
        | b :: s' =>
            if beqb b "," then let* r := read_elements fuel' (skip_space s') in Ok (fst v :: fst r, snd r)
            else if beqb b "]" then Ok ([fst v], s')
            else json_fail
        | [] => json_fail
        end
    end.
  (** [MapAccess]. *)
  Definition read_entry (s : bytes) : outcome ((fvalue * fvalue) * bytes) :=
    match s with
    | b :: s1 =>
        if beqb b x22 then
          let* k := read_string (List.length s1) s1 in
          match skip_space (snd k) with
          | c :: s2 =>
              if beqb c ":" then let* v := value (skip_space s2) in Ok ((FStr (fst k), fst v), snd v) else json_fail
          | [] => json_fail
          end
        else json_fail                                  (* [KeyMustBeAString] *)
    | [] => json_fail
    end.
  Fixpoint read_entries (fuel : nat) (s : bytes) : outcome (fmap * bytes) :=
    match fuel with
    | O => json_fail
    | S fuel' =>
        let* kv := read_entry s in
        match skip_space (snd kv) with
        | b :: s' =>
            if beqb b "," then let* r := read_entries fuel' (skip_space s') in Ok (fst kv :: fst r, snd r)
            else if beqb b "}" then Ok ([fst kv], s')
            else json_fail
        | [] => json_fail
        end
    end.
  Definition read_array (s : bytes) : outcome (list fvalue * bytes) :=
    match skip_space s with
    | b :: s' => if beqb b "]" then Ok ([], s') else read_elements (List.length s) (b :: s')
    | [] => json_fail
    end.
  Definition read_object (s : bytes) : outcome (fmap * bytes) :=
    match skip_space s with
    | b :: s' => if beqb b "}" then Ok ([], s') else read_entries (List.length s) (b :: s')
    | [] => json_fail
    end.
End Values.

(** [Deserializer::deserialize_any].  [depth] is [remaining_depth], which must stay above zero inside a container. *)
Fixpoint read_value (depth : nat) (s : bytes) : outcome (fvalue * bytes) :=
  match s with
  | [] => json_fail
  | b :: s' =>
      if beqb b "n" then read_word "null" FNull s
      else if beqb b "t" then read_word "true" (FBool true) s
      else if beqb b "f" then read_word "false" (FBool false) s
      else if beqb b "-" then let* r := read_number false s' in Ok (FNum (fst r), snd r)
      else if is_digit b then let* r := read_number true s in Ok (FNum (fst r), snd r)
      else if beqb b x22 then let* r := read_string (List.length s') s' in Ok (FStr (fst r), snd r)
      else
        match depth with
        | S ((S _) as depth') =>
            if beqb b "[" then let* r := read_array (read_value depth') s' in Ok (FSeq (fst r), snd r)
            else if beqb b "{" then let* r := read_object (read_value depth') s' in Ok (FMap (fst r), snd r)
            else json_fail
        | _ => json_fail
        end
  end.
(** [from_str] of a map: nothing but white space after it. *)
Definition json_read (s : bytes) : outcome fmap :=
  let* r := read_value 128 (skip_space s) in
  match fst r, skip_space (snd r) with
  | FMap m, [] => Ok m
  | _, _ => json_fail
  end.

(** What a float is read as after having been written. *)
Definition json_float (x : f64) : f64 :=
  match json_read (lit "{""x"":" ++ json_number (NFlt x) ++ lit "}") with
  | Ok [(_, FNum (NFlt y))] => y
  | _ => x
  end.

(** A codec that uses this grammar for JSON. *)
Definition with_json (cd : codec) : codec :=
  {| cd_write := fun f es => match f with Json => json_write es | _ => cd_write cd f es end;
     cd_read := fun f s => match f with Json => json_read s | _ => cd_read cd f s end;
     cd_time := cd_time cd |}.
