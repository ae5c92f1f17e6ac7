(** Reading a timestamp: [Deserialize for DateTime<Utc>] of chrono 0.4.38 (Cargo.lock), used for [lastmodified] and [created_at]
    (crates/lib/src/file/timestamp.rs:6-8).  It is [str::parse::<DateTime<FixedOffset>>] followed by [with_timezone(&Utc)].
    The crate is outside /repo; what is used of it is written down here from its documentation and source:
    format/parse.rs [parse_rfc3339_relaxed], format/scan.rs, format/parsed.rs [to_datetime].
    Simplification: white space is ASCII, as in [trim_left]. *)
From Verif.Model Require Export Json Integration.
Open Scope byte_scope.

(** scan.rs [number]: at least one digit, at most [max].  Numbers beyond 64 bits are errors there; here they fail the range checks. *)
Definition scan_number (max : option nat) (s : bytes) : option (N * bytes) :=
  let '(ds, r) := span_digits s in
  let '(ds, r) := match max with Some k => (firstn k ds, skipn k ds ++ r) | None => (ds, r) end in
  match ds with [] => None | _ => Some (digits_N ds, r) end.
(** [Item::Numeric] of width two. *)
Definition scan_two (s : bytes) : option (N * bytes) := scan_number (Some 2) (trim_left s).
(** [Numeric::Year]: any number of digits after a sign, at most four without. *)
Definition scan_year (s : bytes) : option (Z * bytes) :=
  match trim_left s with
  | c :: s' =>
      if beqb c "-" then option_map (fun x => ((- Z.of_N (fst x))%Z, snd x)) (scan_number None s')
      else if beqb c "+" then option_map (fun x => (Z.of_N (fst x), snd x)) (scan_number None s')
      else option_map (fun x => (Z.of_N (fst x), snd x)) (scan_number (Some 4) (c :: s'))
  | [] => None
  end.
(** [Item::Space] and [Item::Literal]. *)
Definition scan_char (c : byte) (s : bytes) : option bytes :=
  match trim_left s with b :: s' => if beqb b c then Some s' else None | [] => None end.
(** [Fixed::Nanosecond]: nothing, or a point and digits, of which nine count. *)
Definition scan_fraction (s : bytes) : option (N * bytes) :=
  match s with
  | b :: s' =>
      if beqb b "." then
        let '(ds, r) := span_digits s' in
        match ds with
        | [] => None
        | _ => let ds9 := firstn 9 ds in Some ((digits_N ds9 * 10 ^ N.of_nat (9 - List.length ds9))%N, r)
        end
      else Some (0%N, s)
  | [] => Some (0%N, s)
  end.
(** scan.rs [timezone_offset] and the word UTC; the offset in minutes. *)
Definition lower (b : byte) : byte := if in_range "A" "Z" b then byte_add b 32 else b.
Definition scan_digits2 (s : bytes) : option (N * bytes) :=
  match s with a :: b :: s' => if is_digit a && is_digit b then Some ((digit_val a * 10 + digit_val b)%N, s') else None | _ => None end.
Fixpoint skip_colons (s : bytes) : bytes :=
  match s with b :: s' => if beqb b ":" || is_space b then skip_colons s' else s | [] => [] end.
Definition scan_sign (s : bytes) : option (bool * bytes) :=
  match s with
  | b :: s' =>
      if beqb b "+" then Some (false, s') else if beqb b "-" then Some (true, s')
      else match strip_prefix [xe2; x88; x92] s with Some s'' => Some (true, s'') | None => None end        (* U+2212 *)
  | [] => None
  end.
Definition scan_offset (s : bytes) : option (Z * bytes) :=
  if bytes_eqb (map lower (firstn 3 s)) (lit "utc") then Some (0%Z, skipn 3 s)
  else
    match s with
    | b :: s' =>
        if beqb b "Z" || beqb b "z" then Some (0%Z, s')
        else
          match scan_sign s with
          | Some (negative, s1) =>
              match scan_digits2 s1 with
              | Some (h, s2) =>
                  match scan_digits2 (skip_colons s2) with
                  | Some (m, s3) => if (m <? 60)%N then let z := Z.of_N (h * 60 + m) in Some ((if negative then - z else z)%Z, s3) else None
                  | None => None
                  end
              | None => None
              end
          | None => None
          end
    | [] => None
    end.

(** Calendar. *)
Definition is_leap (y : Z) : bool := ((y mod 4 =? 0) && negb (y mod 100 =? 0) || (y mod 400 =? 0))%Z.
Definition days_in (y : Z) (m : N) : N :=
  nth (N.to_nat m) [0; 31; if is_leap y then 29 else 28; 31; 30; 31; 30; 31; 31; 30; 31; 30; 31]%N 0%N.
Definition next_day (y : Z) (m d : N) : Z * N * N :=
  (if d <? days_in y m then (y, m, d + 1) else if m <? 12 then (y, m + 1, 1) else ((y + 1)%Z, 1, 1))%N.
Definition previous_day (y : Z) (m d : N) : Z * N * N :=
  (if 1 <? d then (y, m, d - 1) else if 1 <? m then (y, m - 1, days_in y (m - 1)) else ((y - 1)%Z, 12, 31))%N.

(** parsed.rs [to_datetime]: the local time, which must exist, less the offset (of less than a day).  Second 60 is a leap second. *)
Definition to_utc (y : Z) (mo d h mi s nano : N) (offset : Z) : option timestamp :=
  if ((-262143 <=? y)%Z && (y <=? 262142)%Z && (1 <=? mo)%N && (mo <=? 12)%N && (1 <=? d)%N && (d <=? days_in y mo)%N
      && (h <? 24)%N && (mi <? 60)%N && (s <=? 60)%N && (Z.abs offset <? 1440)%Z) then
    let '(s', nano') := if (s =? 60)%N then (59%N, (nano + 1000000000)%N) else (s, nano) in
    let minutes := (Z.of_N (h * 60 + mi) - offset)%Z in
    let '(y', mo', d') := if (minutes <? 0)%Z then previous_day y mo d else if (1440 <=? minutes)%Z then next_day y mo d else (y, mo, d) in
    let minutes' := Z.to_N (minutes mod 1440) in
    if ((-262143 <=? y') && (y' <=? 262142))%Z then
      Some {| t_year := y'; t_month := mo'; t_day := d'; t_hour := (minutes' / 60)%N; t_min := (minutes' mod 60)%N; t_sec := s'; t_nano := nano' |}
    else None
  else None.

Definition obind {A B} (o : option A) (f : A -> option B) : option B := match o with Some a => f a | None => None end.
(** parse.rs [parse_rfc3339_relaxed] and [FromStr for DateTime<FixedOffset>]. *)
Definition time_read (text : bytes) : option timestamp :=
  obind (scan_year text) (fun y =>
  obind (scan_char "-" (snd y)) (fun s =>
  obind (scan_two s) (fun mo =>
  obind (scan_char "-" (snd mo)) (fun s =>
  obind (scan_two s) (fun d =>
  obind (match snd d with b :: s => if beqb b "t" || beqb b "T" || beqb b " " then Some s else None | [] => None end) (fun s =>
  obind (scan_two s) (fun h =>
  obind (scan_char ":" (snd h)) (fun s =>
  obind (scan_two s) (fun mi =>
  obind (scan_char ":" (snd mi)) (fun s =>
  obind (scan_two s) (fun sec =>
  obind (scan_fraction (snd sec)) (fun nano =>
  obind (scan_offset (trim_left (snd nano))) (fun o =>
  match trim_left (snd o) with
  | [] => to_utc (fst y) (fst mo) (fst d) (fst h) (fst mi) (fst sec) (fst nano) (fst o)
  | _ => None
  end))))))))))))).

(** The codec of JSON files: no parameters are left.  The other two formats are taken from [cd]. *)
Definition json_codec (cd : codec) : codec :=
  {| cd_write := cd_write (with_json cd); cd_read := cd_read (with_json cd); cd_time := time_read |}.
