(** Specification vocabulary for numbers in JSON text. *)
From Coq Require Import QArith Qpower.
From Verif.Model Require Import Document.
From Verif.Spec Require Export SpecDocument.

(** The absolute value of a finite float, and the distance of its neighbours. *)
Definition magnitude (m : N) (e : Z) : Q := inject_Z (Z.of_N m) * Qpower (2 # 1) e.
Definition decimal (d : N) (k : Z) : Q := inject_Z (Z.of_N d) * Qpower (10 # 1) k.

(** [y] is a float of the same sign, at most eight units in the last place of [x] away from it. *)
Definition near_float (x y : f64) : Prop :=
  exists neg m e m' e', x = FFin neg m e /\ y = FFin neg m' e' /\ f64_canonical y = true
    /\ (magnitude m e - (8 # 1) * Qpower (2 # 1) e <= magnitude m' e' <= magnitude m e + (8 # 1) * Qpower (2 # 1) e)%Q.

(** [x] is the float closest to a decimal of at most 15 digits: nearer than half way to either neighbour (the lower neighbour of a power of
    two is nearer).  The decimal has at most 22 digits after the point; its value is below 1e15, or from 1e16 and below 1e22. *)
Definition short_decimal (x : f64) : Prop :=
  exists neg m e, x = FFin neg m e /\ f64_canonical x = true
    /\ ((m = 0%N /\ e = (-1074)%Z)
        \/ exists d k, (0 < m)%N /\ (0 < d < 10 ^ 15)%N /\ (-22 <= k)%Z
            /\ (magnitude m e - (if (m =? 2 ^ 52)%N then 1 # 4 else 1 # 2) * Qpower (2 # 1) e < decimal d k < magnitude m e + (1 # 2) * Qpower (2 # 1) e)%Q
            /\ (decimal d k < Qpower (10 # 1) 15 \/ Qpower (10 # 1) 16 <= decimal d k < Qpower (10 # 1) 22)%Q).
