(** What uniform splines in double precision are compared with, for C101. *)
From Coq Require Import ZArith Reals List Bool.
From Flocq Require Import Core IEEE754.BinarySingleNaN.
From Verif Require Import Model.Scalar Model.Vec Model.PlaneFloat.
Local Open Scope R_scope.

(** a point with finite coordinates up to [M] *)
Definition point_within (M : R) (p : fvec) : Prop :=
  (is_finite (fx p) = true /\ Rabs (B2R (fx p)) <= M) /\ (is_finite (fy p) = true /\ Rabs (B2R (fy p)) <= M) /\ (is_finite (fz p) = true /\ Rabs (B2R (fz p)) <= M).
(** magnitudes far enough from underflow and overflow *)
Definition usual_size (M : R) : Prop := bpow radix2 (-900) <= M <= bpow radix2 1000.
(** [p] is finite and each coordinate is at most [d] off *)
Definition at_most_off (d : R) (p : fvec) (q : vec3) : Prop :=
  (is_finite (fx p) = true /\ Rabs (B2R (fx p) - vx q) <= d) /\ (is_finite (fy p) = true /\ Rabs (B2R (fy p) - vy q) <= d) /\ (is_finite (fz p) = true /\ Rabs (B2R (fz p) - vz q) <= d).
(** one unit of rounding, 2^-53 times the size *)
Definition unit_of (M : R) : R := bpow radix2 (-53) * M.
(** a double, possibly infinite, that is at most, at least [x] *)
Definition up_to (x : R) (t : b64) : Prop := t = B754_infinity true \/ (is_finite t = true /\ B2R t <= x).
Definition from_on (x : R) (t : b64) : Prop := t = B754_infinity false \/ (is_finite t = true /\ x <= B2R t).
