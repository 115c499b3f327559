(** Control points and knots of B-splines in double precision, for C102. *)
From Coq Require Import ZArith Reals List Bool.
From Flocq Require Import Core IEEE754.BinarySingleNaN.
From Verif Require Import Model.Scalar Model.Vec Model.PlaneFloat Spec.FloatSpec.
Local Open Scope R_scope.

(** the same points and knots as real numbers *)
Definition exact_points (l : list (fvec * b64)) : list (vec3 * R) := map (fun a => (exact_vec (fst a), B2R (snd a))) l.
(** a point with finite coordinates *)
Definition finite_point (p : fvec) : Prop := is_finite (fx p) = true /\ is_finite (fy p) = true /\ is_finite (fz p) = true.
(** any two knots are equal, or at least 2^-500 apart *)
Definition well_separated (l : list (fvec * b64)) : Prop :=
  forall x y, In x (map snd l) -> In y (map snd l) -> B2R x = B2R y \/ bpow radix2 (-500) <= Rabs (B2R x - B2R y).
(** the coordinates are not negative *)
Definition in_octant (p : fvec) : Prop := 0 <= B2R (fx p) /\ 0 <= B2R (fy p) /\ 0 <= B2R (fz p).
(** the same number, or zeros that may differ in sign *)
Definition same_number (a b : b64) : Prop := a = b \/ (exists s, a = B754_zero s) /\ (exists s, b = B754_zero s).
Definition same_point (p q : fvec) : Prop := same_number (fx p) (fx q) /\ same_number (fy p) (fy q) /\ same_number (fz p) (fz q).
