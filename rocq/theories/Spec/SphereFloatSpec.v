(** Spheres and rays of floating point numbers as exact ones, and how far rounding can move the terms that decide a hit. *)
From Coq Require Import Reals ZArith.
From Flocq Require Import Core IEEE754.BinarySingleNaN.
From Verif Require Import Model.Scalar Model.Vec Model.Plane Model.PlaneFloat Model.TriFloat Model.SphereFloat Spec.FloatSpec Spec.FrustumFloatSpec Spec.TriFloatSpec.
Local Open Scope R_scope.

Definition exact_sphere (s : fsphere) : sphere := mkSphere (exact_vec (fsorigin s)) (B2R (fsradius s)).
Definition mild_sphere (s : fsphere) : Prop := mild_vec (fsorigin s) /\ mild (fsradius s).
(** Directions of length 1 up to rounding *)
Definition nearly_unit (v : vec3) : Prop := Rabs (dot v v - 1) <= bpow radix2 (-50).

(** From the center to a point; how far the square of the distance exceeds the square of the radius; how far a ray moves away; how deep its line enters. *)
Definition from_center (s : sphere) (x : vec3) : vec3 := vsub x (sorigin s).
Definition outside (s : sphere) (x : vec3) : R := dot (from_center s x) (from_center s x) - sradius s * sradius s.
Definition away (s : sphere) (r : ray) : R := dot (from_center s (rorigin r)) (rdirection r).
Definition depth (s : sphere) (r : ray) : R := away s r * away s r - outside s (rorigin r).

(** What rounding can change in squares: one part in 2^46 of the squares of the distance and of the radius; and in products with the direction. *)
Definition square_slack (s : sphere) (x : vec3) : R :=
  bpow radix2 (-46) * (dot (from_center s x) (from_center s x) + sradius s * sradius s) + bpow radix2 (-850).
Definition away_slack (s : sphere) (x : vec3) : R := bpow radix2 (-50) * len (from_center s x) + bpow radix2 (-400).
