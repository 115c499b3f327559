(** What Bezier curves should be in double precision (C95). *)
From Coq Require Import Reals List.
From Flocq Require Import Core IEEE754.BinarySingleNaN.
From Verif Require Import Model.Scalar Model.Vec Model.PlaneFloat Spec.FloatSpec Spec.ClipFloatSpec.
Import ListNotations.
Local Open Scope R_scope.

(** The powers of the numbers from 0 to 1 are right up to two units in the last place, and the trivial ones are exact. *)
Definition accurate_pow (fpow : b64 -> nat -> b64) : Prop :=
  forall (x : b64) n, is_finite x = true -> 0 <= B2R x <= 1 -> (n <= 20)%nat ->
    is_finite (fpow x n) = true /\ Rabs (B2R (fpow x n) - B2R x ^ n) <= bpow radix2 (-51) * B2R x ^ n + bpow radix2 (-1074) /\
    (n = O \/ B2R x = 1 -> B2R (fpow x n) = 1) /\ (n <> O -> B2R x = 0 -> B2R (fpow x n) = 0).

(** Control points of moderate size *)
Definition tame_points (ps : list fvec) : Prop := forall p, In p ps -> tame_vec p.
(** A component of a point, as computed and as exact one *)
Definition same_component (c : fvec -> b64) (e : vec3 -> R) : Prop := (c = fx /\ e = vx) \/ (c = fy /\ e = vy) \/ (c = fz /\ e = vz).
(** What rounding adds up to, for numbers up to [m] *)
Definition slack (m : R) : R := bpow radix2 (-45) * m + bpow radix2 (-1068).
(** A finite point at the same place *)
Definition same_place (q p : fvec) : Prop := (is_finite (fx q) = true /\ is_finite (fy q) = true /\ is_finite (fz q) = true) /\ exact_vec q = exact_vec p.
