(** Sine and cosine in double precision, and the points that generated cylinders and tori should have. *)
From Coq Require Import Reals ZArith.
From Flocq Require Import Core IEEE754.BinarySingleNaN.
From Verif Require Import Model.Scalar Model.Vec Model.BoxFloat Model.PlaneFloat.
Local Open Scope R_scope.

(** Right up to two roundings, for the angles that occur *)
Definition accurate (f : b64 -> b64) (g : R -> R) : Prop :=
  forall x, is_finite x = true -> Rabs (B2R x) <= 7 ->
    is_finite (f x) = true /\ Rabs (B2R (f x) - g (B2R x)) <= bpow radix2 (-52) * Rabs (g (B2R x)) + bpow radix2 (-1074).
Definition trigonometry (fsin fcos : b64 -> b64) : Prop := accurate fsin sin /\ accurate fcos cos /\ B2R (fcos b64_0) = 1.

(** Part [u] of [n] of a turn *)
Definition part (n u : Z) : R := 2 * PI * (IZR u / IZR n).
Definition cylinder_point (n m : Z) (rx rz h : R) (u v : Z) : vec3 :=
  V3 (rx * sin (part n u)) (h * (1 / 2 - IZR v / IZR m)) (rz * cos (part n u)).
Definition torus_point (n m : Z) (ring_x ring_z tx ty tz : R) (u v : Z) : vec3 :=
  V3 ((ring_x + tx * sin (part m v)) * sin (part n u)) (ty * cos (part m v)) ((ring_z + tz * sin (part m v)) * cos (part n u)).
