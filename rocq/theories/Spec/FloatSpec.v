(** Floating point planes, points and boxes as exact ones, and how far rounding can move a distance. *)
From Coq Require Import Reals ZArith.
From Flocq Require Import Core IEEE754.BinarySingleNaN.
From Verif Require Import Model.Scalar Model.Vec Model.Plane Model.PlaneFloat.
Local Open Scope R_scope.

Definition exact_vec (v : fvec) : vec3 := V3 (B2R (fx v)) (B2R (fy v)) (B2R (fz v)).
Definition exact_plane (p : fplane) : plane := mkPlane (exact_vec (fnormal p)) (B2R (fdistance p)).
Definition exact_box (b : fbox) : aabb := mkAabb (exact_vec (fmin b)) (exact_vec (fmax b)).

(** A number that is finite and not so large that products overflow. *)
Definition moderate (x : b64) : Prop := is_finite x = true /\ Rabs (B2R x) <= bpow radix2 500.
Definition moderate_vec (v : fvec) : Prop := moderate (fx v) /\ moderate (fy v) /\ moderate (fz v).
Definition moderate_plane (p : fplane) : Prop := moderate_vec (fnormal p) /\ moderate (fdistance p).

(** Sum of the magnitudes of the terms of a signed distance. *)
Definition magnitude (n x : vec3) (d : R) : R := Rabs (vx n * vx x) + Rabs (vy n * vy x) + Rabs (vz n * vz x) + Rabs d.
(** What rounding can change: one part in 2^50 of the magnitude, and 2^-1070 for products that underflow. *)
Definition slack (p : plane) (x : vec3) : R := bpow radix2 (-50) * magnitude (normal p) x (distance p) + bpow radix2 (-1070).
(** The same for all points of a box. *)
Definition box_slack (p : plane) (b : aabb) : R :=
  let larger (c : vec3 -> R) := Rmax (Rabs (c (bmin b))) (Rabs (c (bmax b))) in
  slack p (V3 (larger vx) (larger vy) (larger vz)).
