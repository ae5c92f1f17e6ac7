(** Instants: the Gregorian calendar counted in days, independent of how a day is stepped to the next. *)
From Coq Require Import ZArith.
From Verif.Model Require Import Document.
From Verif.Spec Require Export SpecDocument.

(** The days of the months before month [m], and the days before the first of January of year [y], counted from that of year one. *)
Fixpoint days_before_month (y : Z) (k : nat) : Z :=
  match k with 0 => 0%Z | S k' => (days_before_month y k' + Z.of_N (month_days y (N.of_nat (S k'))))%Z end.
Definition days_before_year (y : Z) : Z := (365 * (y - 1) + (y - 1) / 4 - (y - 1) / 100 + (y - 1) / 400)%Z.
Definition day_number (y : Z) (m d : N) : Z := (days_before_year y + days_before_month y (N.to_nat m - 1) + Z.of_N d)%Z.
(** Minutes; seconds and nanoseconds are not affected by offsets, which are whole minutes. *)
Definition minute_number (y : Z) (m d h mi : N) : Z := ((day_number y m d * 24 + Z.of_N h) * 60 + Z.of_N mi)%Z.
Definition minute_of (t : timestamp) : Z := minute_number (t_year t) (t_month t) (t_day t) (t_hour t) (t_min t).
(** A time as chrono prints it, without its offset, and an offset. *)
Definition local_text (t : timestamp) : bytes :=
  year_text (t_year t) ++ "-"%byte :: pad2 (t_month t) ++ "-"%byte :: pad2 (t_day t) ++ "T"%byte :: pad2 (t_hour t)
  ++ ":"%byte :: pad2 (t_min t) ++ ":"%byte :: pad2 (shown_sec t) ++ fraction_text (t_nano t mod 1000000000).
Definition offset_text (west : bool) (h m : N) : bytes := (if west then "-" else "+")%byte :: pad2 h ++ ":"%byte :: pad2 m.
Definition offset_minutes (west : bool) (h m : N) : Z := (if west then - Z.of_N (h * 60 + m) else Z.of_N (h * 60 + m))%Z.
