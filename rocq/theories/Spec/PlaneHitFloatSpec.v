(** What hits of planes in double precision are compared with, for C105. *)
From Coq Require Import Reals ZArith.
From Flocq Require Import Core IEEE754.BinarySingleNaN.
From Verif Require Import Model.Scalar Model.Vec Model.Plane Model.PlaneFloat Spec.PlaneSpec Spec.FloatSpec.
Local Open Scope R_scope.

(** the point after [t] times the way from [a] along [d] *)
Definition along (a d : vec3) (t : R) : vec3 := vadd a (vscale t d).
Definition finite_vec (v : fvec) : Prop := is_finite (fx v) = true /\ is_finite (fy v) = true /\ is_finite (fz v) = true.

(** How fast the distance to the plane grows along a ray, and what rounding can change about it: one part in 2^51 of its terms, and 2^-1072 for products that underflow *)
Definition climb (p : plane) (d : vec3) : R := dot (normal p) d.
Definition climb_magnitude (p : plane) (d : vec3) : R := magnitude (normal p) d 0.
Definition climb_slack (p : plane) (d : vec3) : R := bpow radix2 (-51) * climb_magnitude p d + bpow radix2 (-1072).

(** What rounding can change at a point of a ray: one part in 2^49 of the terms of its distance; the other terms are what underflow can add *)
Definition ray_slack (p : plane) (o d : vec3) (t : R) : R :=
  bpow radix2 (-49) * (magnitude (normal p) o (distance p) + t * climb_magnitude p d) +
  bpow radix2 (-1069) * (1 + t) + bpow radix2 (-1074) * climb_magnitude p d + bpow radix2 (-1073) * (Rabs (vx (normal p)) + Rabs (vy (normal p)) + Rabs (vz (normal p))).

(** [f] is on the plane, and no point of the plane is nearer to [x] *)
Definition nearest_on (alt : bool) (p : plane) (x f : vec3) : Prop := side alt p f = 0 /\ forall y, side alt p y = 0 -> dot (vsub x f) (vsub x f) <= dot (vsub x y) (vsub x y).
(** a normal of length one, up to rounding *)
Definition nearly_unit (n : vec3) : Prop := Rabs (dot n n - 1) <= bpow radix2 (-49).
