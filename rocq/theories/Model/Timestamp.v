(** Timestamps: crates/lib/src/file/timestamp.rs, file/metadata/last_modified.rs, integration/created_at.rs.
    A [DateTime<Utc>] of chrono is its civil fields; how chrono computes them from a clock is not modelled. *)
From Verif.Model Require Export IntText.
Open Scope byte_scope.

(** A UTC date and time.  Chrono represents a leap second by second 59 and [t_nano] of at least 10^9. *)
Record timestamp := {
  t_year : Z; t_month : N; t_day : N; t_hour : N; t_min : N; t_sec : N; t_nano : N }.

(** What chrono can hold (its year range; the number of days of the month is not checked here). *)
Definition valid_timestamp (t : timestamp) : bool :=
  ((-262143 <=? t_year t)%Z && (t_year t <=? 262142)%Z)
  && ((1 <=? t_month t) && (t_month t <=? 12))%N && ((1 <=? t_day t) && (t_day t <=? 31))%N
  && (t_hour t <? 24)%N && (t_min t <? 60)%N && (t_sec t <? 60)%N && (t_nano t <? 2000000000)%N
  && ((t_nano t <? 1000000000)%N || (t_sec t =? 59)%N).

(** [Timestamp::now] (timestamp.rs:10-14) of a clock reading. *)
Definition whole_second (t : timestamp) : timestamp :=
  {| t_year := t_year t; t_month := t_month t; t_day := t_day t; t_hour := t_hour t; t_min := t_min t; t_sec := t_sec t; t_nano := 0 |}.

(** Two decimal digits. *)
Definition digit (n : N) : byte := byte_add "0" n.
Definition pad2 (n : N) : bytes := [digit (n / 10); digit (n mod 10)].

(** chrono's [write_rfc3339]: four digits, or a sign and at least four digits outside 0..9999. *)
Definition year_text (y : Z) : bytes :=
  if ((0 <=? y) && (y <=? 9999))%Z then pad2 (Z.to_N y / 100) ++ pad2 (Z.to_N y mod 100)
  else (if (y <? 0)%Z then "-" else "+")
       :: (let a := Z.to_N (Z.abs y) in if (a <=? 9999)%N then pad2 (a / 100) ++ pad2 (a mod 100) else N_text a).

(** The second shown: a leap second is shown as one more (60). *)
Definition shown_sec (t : timestamp) : N := if (1000000000 <=? t_nano t)%N then (t_sec t + 1)%N else t_sec t.

(** [Display for Timestamp] (timestamp.rs:16-20): [to_rfc3339_opts(SecondsFormat::Secs, true)].  The fraction is dropped. *)
Definition timestamp_text (t : timestamp) : bytes :=
  year_text (t_year t) ++ "-" :: pad2 (t_month t) ++ "-" :: pad2 (t_day t) ++ "T" :: pad2 (t_hour t)
  ++ ":" :: pad2 (t_min t) ++ ":" :: pad2 (shown_sec t) ++ ["Z"].
